(** Specification: the text of a query, clause by clause.  Names and values are
    shown as R(...) and V(...) show them, conditions as str() shows them; see
    C01-C16 for these. *)
From Coq Require Import Sorted.
From Verif Require Import Base NumFmt Value Render Build Queries SpecRead SpecRef SpecArgs SpecHistory.
Open Scope N_scope.

(** [t] is [s] without its trailing whitespace. *)
Definition trimmed (s t : str) : Prop :=
  exists ws, s = t ++ ws /\ Forall whitespace ws /\ forall c x, t = x ++ [c] -> ~ whitespace c.

(** The texts of the elements, separated. *)
Definition separated {A} (sep : str) (P : A -> str -> Prop) (l : list A) (t : str) : Prop :=
  exists ts, Forall2 P l ts /\ t = sjoin sep ts.
(** A clause that is present exactly if there is something in it. *)
Inductive clause {A} (pre sep : str) (P : A -> str -> Prop) : list A -> list str -> Prop :=
| cl_absent : clause pre sep P [] []
| cl_present : forall x l t, separated sep P (x :: l) t -> clause pre sep P (x :: l) [pre ++ t].

Definition name_text (E : env) (v : val) (t : str) : Prop := text E (VSqlR v) = Ok t.
Definition value_text (E : env) (v : val) (t : str) : Prop := text E (VSqlV v) = Ok t.
Definition cond_text (E : env) (v : val) (t : str) : Prop := text E v = Ok t.

(** name, or name AS alias. *)
Inductive aliased_text (E : env) : val * val -> str -> Prop :=
| as_plain : forall n a t, truthy a = false -> name_text E n t -> aliased_text E (n, a) t
| as_alias : forall n a t u, truthy a = true -> name_text E n t -> name_text E a u ->
    aliased_text E (n, a) (t ++ lit " AS " ++ u).
Inductive order_text (E : env) : val * sortd -> str -> Prop :=
| ot_asc : forall c t, name_text E c t -> order_text E (c, Asc) t
| ot_desc : forall c t, name_text E c t -> order_text E (c, Desc) (t ++ lit " DESC").
(** The list of columns; * if there is none. *)
Inductive columns_text (E : env) : list (val * val) -> str -> Prop :=
| ct_all : columns_text E [] (lit "*")
| ct_some : forall c cs t, separated (lit ", ") (aliased_text E) (c :: cs) t -> columns_text E (c :: cs) t.

(** ** Joins *)
(** Python's a and b. *)
Definition both (a b : res bool) : res bool := match a with Ok true => b | _ => a end.
(** The same table with the same condition. *)
Definition join_equal (E : env) (a b : join val) : res bool :=
  both (both (py_eq E (j_name a) (j_name b)) (py_eq E (j_alias a) (j_alias b)))
       (py_eq E (VConds (j_ons a)) (VConds (j_ons b))).
(** The elements that answer yes and those that answer no, in order. *)
Inductive parted {A} (f : A -> res bool) : list A -> list A -> list A -> Prop :=
| parted_nil : parted f [] [] []
| parted_yes : forall x l a b, f x = Ok true -> parted f l a b -> parted f (x :: l) (x :: a) b
| parted_no : forall x l a b, f x = Ok false -> parted f l a b -> parted f (x :: l) a (x :: b).
(** What becomes of a join and the later joins equal to it. *)
Inductive settled (j : join val) : list (join val) -> list (join val) -> Prop :=
| st_alone : settled j [] [j]
| st_inner : forall tw, tw <> [] -> (exists x, In x (j :: tw) /\ j_type x = JInner) ->
    settled j tw [MkJoin JInner (j_name j) (j_alias j) (j_ons j)]
| st_same : forall tw, tw <> [] -> j_type j <> JInner -> (forall x, In x tw -> j_type x = j_type j) ->
    settled j tw [j]
| st_mixed : forall tw, (forall x, In x (j :: tw) -> j_type x <> JInner) ->
    (exists x, In x tw /\ j_type x <> j_type j) -> settled j tw (j :: tw).
Inductive merged (E : env) : list (join val) -> list (join val) -> Prop :=
| mg_nil : merged E [] []
| mg_cons : forall j l twins others out rest, parted (join_equal E j) l twins others ->
    settled j twins out -> merged E others rest -> merged E (j :: l) (out ++ rest).

Definition join_word (t : jointy) : str :=
  match t with JInner => lit "JOIN" | JLeft => lit "LEFT JOIN" | JRight => lit "RIGHT JOIN" | JFull => lit "FULL JOIN" end.
Inductive join_text (E : env) : join val -> str -> Prop :=
| jt_bare : forall ty n a t, aliased_text E (n, a) t -> join_text E (MkJoin ty n a []) (join_word ty ++ lit " " ++ t)
| jt_on : forall ty n a o os t c, aliased_text E (n, a) t -> separated (lit " AND ") (cond_text E) (o :: os) c ->
    join_text E (MkJoin ty n a (o :: os)) (join_word ty ++ lit " " ++ t ++ lit " ON " ++ c).
Inductive table_text (E : env) : table val -> str -> Prop :=
| tt_plain : forall n a t, aliased_text E (n, a) t -> table_text E (MkTable n a []) t
| tt_joins : forall n a j js ms t u, aliased_text E (n, a) t -> merged E (j :: js) ms ->
    separated (lit " ") (join_text E) ms u -> table_text E (MkTable n a (j :: js)) (t ++ lit " " ++ u).

(** ** The other clauses of SELECT *)
Inductive limit_words : option Z -> option Z -> list str -> Prop :=
| lc_none : limit_words None None []
| lc_limit : forall n t, numeral n t -> limit_words (Some n) None [lit "LIMIT " ++ t]
| lc_offset : forall n t, numeral n t -> limit_words None (Some n) [lit "OFFSET " ++ t]
| lc_both : forall n m t u, numeral n t -> numeral m u ->
    limit_words (Some n) (Some m) [lit "LIMIT " ++ t; lit "OFFSET " ++ u].
(** The last accepted argument of one of the four INTO OUTFILE calls: text or an SQL object. *)
Definition wanted_out (f : outfield) (ops : list selop) : option val :=
  last_such (fun op => match op, f with
                       | SOut OFile v, OFile | SOut OFields v, OFields | SOut OLines v, OLines | SOut OEncl v, OEncl =>
                           match v with VStr _ => Some v | _ => if is_sql v then Some v else None end
                       | _, _ => None end) ops.
Inductive out_option (E : env) (kw : str) : option val -> list str -> Prop :=
| oo_none : out_option E kw None []
| oo_some : forall v t, value_text E v t -> out_option E kw (Some v) [kw ++ t].
Inductive out_clause (E : env) (ops : list selop) : list str -> Prop :=
| oc_none : wanted_out OFile ops = None -> out_clause E ops []
| oc_file : forall v t f l e, wanted_out OFile ops = Some v -> value_text E v t ->
    out_option E (lit "FIELDS TERMINATED BY ") (wanted_out OFields ops) f ->
    out_option E (lit "LINES TERMINATED BY ") (wanted_out OLines ops) l ->
    out_option E (lit "OPTIONALLY ENCLOSED BY ") (wanted_out OEncl ops) e ->
    out_clause E ops ((lit "INTO OUTFILE " ++ t) :: f ++ l ++ e).
Definition locked (ops : list selop) : bool :=
  match last_such (fun op => match op with SForUpdate v => Some (truthy v) | _ => None end) ops with
  | Some true => true | _ => false end.

(** ** The four statements.  [ops]: the calls made; the lists are the contents of
    the clauses (see C17-C24 for what the calls put there). *)
Definition words (l : list str) : str := sjoin (lit " ") l.
Definition select_text (E : env) (ops : list selop) (cols : list (val * val)) (tabs : list (table val))
  (where_ : list val) (group : list (val * sortd)) (having : list val) (order : list (val * sortd)) (t : str) : Prop :=
  exists columns from_ wh gr hv od li out,
    columns_text E cols columns /\
    clause (lit "FROM ") (lit ", ") (table_text E) tabs from_ /\
    clause (lit "WHERE ") (lit " AND ") (cond_text E) where_ wh /\
    clause (lit "GROUP BY ") (lit ", ") (order_text E) group gr /\
    clause (lit "HAVING ") (lit " AND ") (cond_text E) having hv /\
    clause (lit "ORDER BY ") (lit ", ") (order_text E) order od /\
    limit_words (wanted_limit ops) (wanted_offset ops) li /\
    out_clause E ops out /\
    trimmed (words ([lit "SELECT"] ++ map option_name (filter (option_on ops) alphabetical) ++ [columns]
                    ++ from_ ++ wh ++ gr ++ hv ++ od ++ li ++ out
                    ++ (if locked ops then [lit "FOR UPDATE"] else []))) t.

Definition ignored_ (l : option bool) : list str := match l with Some true => [lit "IGNORE"] | _ => [] end.
Definition update_text (E : env) (ops : list updop) (tabs : list (table val)) (vals where_ : list val) (t : str) : Prop :=
  exists tb st wh,
    clause [] (lit ", ") (table_text E) tabs tb /\
    clause [] (lit ", ") (cond_text E) vals st /\
    clause (lit "WHERE ") (lit " AND ") (cond_text E) where_ wh /\
    trimmed (words ([lit "UPDATE"]
      ++ ignored_ (last_such (fun op => match op with UIgnore v => Some (truthy v) | _ => None end) ops)
      ++ tb ++ [lit "SET"] ++ st ++ wh)) t.
Definition delete_text (E : env) (ops : list delop) (tabs refs : list (table val)) (where_ : list val) (t : str) : Prop :=
  exists tb rf wh,
    clause [] (lit ", ") (table_text E) tabs tb /\
    clause [] (lit ", ") (table_text E) refs rf /\
    clause (lit "WHERE ") (lit " AND ") (cond_text E) where_ wh /\
    trimmed (words ([lit "DELETE"]
      ++ ignored_ (last_such (fun op => match op with DIgnore v => Some (truthy v) | _ => None end) ops)
      ++ tb ++ [lit "FROM"] ++ rf ++ wh)) t.

(** Rows of INSERT: pairs of a column and a value; the last one counts. *)
Definition row_parts (row : list (str * val)) : list val := map (fun p => VValue (VStr (fst p)) (snd p)) row.
Inductive given (row : list (str * val)) (c : str) : val -> Prop :=
| gv_last : forall pre v post, row = pre ++ (c, v) :: post -> ~ In c (map fst post) -> given row c v
| gv_none : ~ In c (map fst row) -> given row c VNone.
(** Every column once, alphabetically. *)
Definition insert_columns (rows : list (list (str * val))) (cols : list str) : Prop :=
  StronglySorted before cols /\ forall c, In c cols <-> exists row, In row rows /\ In c (map fst row).
Definition in_parens (t : str) : str := lit "(" ++ t ++ lit ")".
Definition row_text (E : env) (cols : list str) (row : list (str * val)) (t : str) : Prop :=
  exists vs ts, Forall2 (given row) cols vs /\ Forall2 (value_text E) vs ts /\ t = in_parens (sjoin (lit ", ") ts).
Definition rows_text (E : env) (rows : list (list (str * val))) (t : str) : Prop :=
  exists cols names rs, insert_columns rows cols /\ separated (lit ", ") (fun c => name_text E (VStr c)) cols names /\
    separated (lit ", ") (row_text E cols) rows rs /\
    t = in_parens names ++ lit " VALUES " ++ rs.
Inductive rows_clause (E : env) : list (list val) -> list str -> Prop :=
| rw_none : rows_clause E [] []
| rw_some : forall rows t, rows <> [] -> rows_text E rows t -> rows_clause E (map row_parts rows) [t].
(** The column of ON CONFLICT. *)
Definition conflict_text (E : env) (c : option str) (t : str) : Prop :=
  match c with Some s => name_text E (VStr s) t | None => t = [] end.
Definition insert_text (E : env) (ops : list insop) (replace : bool) (tabs : list (table val)) (rows : list (list val))
  (dup : list val) (conflict : option str) (upd : list val) (t : str) : Prop :=
  exists tb rw du cc cf,
    clause [] (lit ", ") (table_text E) tabs tb /\
    rows_clause E rows rw /\
    clause (lit "ON DUPLICATE KEY UPDATE ") (lit ", ") (cond_text E) dup du /\
    conflict_text E conflict cc /\
    clause (lit "ON CONFLICT (" ++ cc ++ lit ") DO UPDATE ") (lit ", ") (cond_text E) upd cf /\
    trimmed (words ([if replace then lit "REPLACE" else lit "INSERT"]
      ++ ignored_ (last_such (fun op => match op with IIgnore v => Some (truthy v) | _ => None end) ops)
      ++ [lit "INTO"] ++ tb ++ rw ++ du ++ cf)) t.
