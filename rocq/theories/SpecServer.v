(** Specification: what the objects a user builds ask a SQL server to do, in terms of
    the statements of SpecSql.v.  Nothing here depends on how text is produced. *)
From Coq Require Import Permutation.
From Verif Require Import Base NumFmt Value SpecLex SpecRef SpecRead SpecLogic SpecConds SpecWhole SpecSql.
Open Scope N_scope.

(** ** Values and names *)
(** A finite number is written with five decimals, correctly rounded (C08). *)
Definition five_decimals (x : num) : option literal :=
  match x with
  | NFin neg n d => let k := round_half_even (n * 100000) d in Some (LNumber neg (n_dec (k / 100000)) (fixed 5 (k mod 100000)))
  | _ => None
  end.
Definition plain_literal (b : backend) (x : val) : option literal :=
  match x with
  | VNone => Some LNull
  | VBool v => Some match b with BPostgres => LBool v | _ => LInt (if v then 1 else 0) end
  | VInt z => Some (LInt z)
  | VStr s => Some (LText (as_read (dialect_of b) s))
  | VDate d => Some (LText (date_iso d))
  | VDatetime d t => Some (LText (datetime_iso d t))
  | VBytes l => Some (LBytes l)
  | VFloat x | VDec x => five_decimals x
  | _ => None
  end.
(** V(x) is the value x. *)
Definition unwrapped (x : val) : val := match x with VSqlV y => y | _ => x end.
Definition literal_of (b : backend) (x : val) : option literal := plain_literal b (unwrapped x).
(** A string that looks like quoted identifiers is taken for a name (C03). *)
Definition value_ok (b : backend) (x : val) : Prop :=
  match unwrapped x with
  | VStr s => ~ reference_shaped (quote_of b) s
  | VBytes l => Forall (fun c => c < 256) l
  | _ => True
  end.

Definition path_of (x : val) : option path :=
  match x with VStr s | VSqlR (VStr s) => Some (name_segments s) | _ => None end.
Definition name_ok (b : backend) (x : val) : Prop :=
  match x with VStr s | VSqlR (VStr s) => good_name (quote_of b) s | _ => False end.
Definition paths_of (l : list val) : list path := flat_map (fun x => match path_of x with Some p => [p] | None => [] end) l.
Definition function_name (k : aggk) : str :=
  lit (match k with FAvg => "AVG" | FCount => "COUNT" | FMax => "MAX" | FMin => "MIN" | FSum => "SUM" end)%string.
(** A column, or a function of columns. *)
Definition expr_of (x : val) : option expr :=
  match x with
  | VAgg k d (VSeq _ l) => Some (ECall (function_name k) d (paths_of l))
  | VAgg k d e => option_map (fun p => ECall (function_name k) d [p]) (path_of e)
  | VConcat cols => Some (ECall (lit "CONCAT") false (paths_of (map fst cols)))
  | _ => option_map EColumn (path_of x)
  end.
Definition expr_ok (b : backend) (x : val) : Prop :=
  match x with
  | VAgg _ _ (VSeq KList l) | VAgg _ _ (VSeq KTuple l) => l <> [] /\ All (name_ok b) l
  | VAgg _ _ e => name_ok b e
  | VConcat cols => cols <> [] /\ All (fun p => name_ok b (fst p) /\ snd p = VNone) cols
  | _ => name_ok b x
  end.

(** ** Single conditions.  In a join condition a plain string is a column. *)
Definition operand_of (b : backend) (k : condk) (x : val) : option operand :=
  match k, x with
  | KOn, VStr _ => option_map OExpr (expr_of x)
  | _, VSqlR _ => option_map OExpr (expr_of x)
  | _, _ => option_map OLiteral (literal_of b x)
  end.
Definition operand_ok (b : backend) (k : condk) (x : val) : Prop :=
  match k, x with
  | KOn, VStr _ => name_ok b x
  | _, VSqlR _ => name_ok b x
  | _, _ => value_ok b x
  end.
Definition operator_of (rk : relk) : option compop :=
  match rk with
  | REq => Some CEq | RNe => Some CNe | RGt => Some CGt | RGe => Some CGe | RLt => Some CLt | RLe => Some CLe
  | RLike => Some CLike | RNotLike => Some CNotLike | RRegexp => Some CRegexp | RIs => Some CIs | RIsNot => Some CIsNot
  | RIn | RNotIn => None
  end.
Definition is_None (x : val) : bool := match x with VNone => true | _ => false end.
(** The members of a list other than None. *)
Definition members (b : backend) (l : list val) : list literal :=
  flat_map (fun x => if is_None x then [] else match literal_of b x with Some y => [y] | None => [] end) l.

Section Asked.
  Context (b : backend) (compare : compop -> literal -> literal -> bool) (value : expr -> literal).
  (** The cell is one of the list; None in the list stands for NULL cells. *)
  Definition one_of (x : literal) (l : list val) : t3 :=
    or3 (member3 compare x (members b l)) (Some (existsb is_None l && null x)).
  (** The cell is none of the list; None in the list excludes NULL cells. *)
  Definition none_of (x : literal) (l : list val) : t3 :=
    and3 (not3 (member3 compare x (members b l))) (Some (negb (existsb is_None l && null x))).
  Definition operand_value (o : operand) : literal :=
    match o with OExpr e => value e | OLiteral l => l end.
  Definition asked_one (x : val) : t3 :=
    match x with
    | VCond k c rk v =>
        match expr_of c with
        | None => None
        | Some e =>
            match rk, v with
            | RIn, VSeq _ l => one_of (value e) l
            | RNotIn, VSeq _ l => none_of (value e) l
            | _, _ => match operator_of rk, operand_of b k v with
                      | Some o, Some y => compare3 compare o (value e) (operand_value y)
                      | _, _ => None
                      end
            end
        end
    | _ => None
    end.
  (** A tree of conditions, SpecConds.v. *)
  Definition asked (x : val) : t3 := meaning asked_one x.
  (** Several conditions: all of them. *)
  Definition asked_all (l : list val) : t3 := fold_right (fun x t => and3 (asked x) t) (Some true) l.
End Asked.

(** The conditions the properties are about. *)
Definition one_ok (b : backend) (k : condk) (c : val) (rk : relk) (v : val) : Prop :=
  expr_ok b c /\
  match rk, v with
  | RIn, VSeq _ l | RNotIn, VSeq _ l => l <> [] /\ All (fun x => value_ok b x /\ literal_of b x <> None) l
  | RIn, _ | RNotIn, _ => False
  | _, _ => operand_ok b k v /\ operand_of b k v <> None
  end.
Inductive cond_ok (b : backend) : val -> Prop :=
| co_one : forall k c rk v, one_ok b k c rk v -> cond_ok b (VCond k c rk v)
| co_q : forall ps, ps <> [] -> Forall (cond_ok b) ps -> cond_ok b (VConds ps)
| co_bin : forall o x y, cond_ok b x -> cond_ok b y -> cond_ok b (VCoC o x y)
| co_not : forall ps, ps <> [] -> Forall (cond_ok b) ps -> cond_ok b (VNot ps).

(** ** Clauses *)
(** A WHERE, HAVING or ON clause says what was asked: it is missing if there is no
    condition, and otherwise it is true, false, unknown of the same data. *)
Definition says_conditions (b : backend) (l : list val) (o : option sexp) : Prop :=
  match l, o with
  | [], None => True
  | _ :: _, Some e => forall compare value, truth compare value e = asked_all b compare value l
  | _, _ => False
  end.
Definition says_alias (a : val) (o : option path) : Prop :=
  match a with VNone => o = None | _ => path_of a <> None /\ o = path_of a end.
Definition kind_of_join (t : jointy) : joinkind :=
  match t with JInner => InnerJoin | JLeft => LeftJoin | JRight => RightJoin | JFull => FullJoin end.
Inductive says_join (b : backend) : join val -> joined -> Prop :=
| sj : forall t n a ons p o e, path_of n = Some p -> says_alias a o -> says_conditions b ons e ->
    says_join b (MkJoin t n a ons) (MkJoined (kind_of_join t) p o e).
Inductive says_table (b : backend) : table val -> source -> Prop :=
| st_ : forall n a js p o l, path_of n = Some p -> says_alias a o -> Forall2 (says_join b) js l ->
    says_table b (MkTable n a js) (MkSource p o l).
Inductive says_column : val * val -> expr * option path -> Prop :=
| sc : forall x a e o, expr_of x = Some e -> says_alias a o -> says_column (x, a) (e, o).
Inductive says_order : val * sortd -> expr * bool -> Prop :=
| so_asc : forall x e, expr_of x = Some e -> says_order (x, Asc) (e, false)
| so_desc : forall x e, expr_of x = Some e -> says_order (x, Desc) (e, true).
Definition options_asked (o : selopts) : list str :=
  (match so_cache o with CacheOff => [] | CacheOn => [lit "SQL_CACHE"] | CacheNo => [lit "SQL_NO_CACHE"] end)
    ++ (match so_dup o with DupOff => [] | DupAll => [lit "ALL"] | DupDistinct => [lit "DISTINCT"] | DupDistinctrow => [lit "DISTINCTROW"] end)
    ++ (if so_small o then [lit "SQL_SMALL_RESULT"] else []) ++ (if so_big o then [lit "SQL_BIG_RESULT"] else [])
    ++ (if so_buffer o then [lit "SQL_BUFFER_RESULT"] else []) ++ (if so_calc o then [lit "SQL_CALC_FOUND_ROWS"] else [])
    ++ (if so_straight o then [lit "STRAIGHT_JOIN"] else []) ++ (if so_high o then [lit "HIGH_PRIORITY"] else []).

(** ** Statements *)
(** No column listed stands for all columns. *)
Definition columns_asked (l : list (val * val)) : list (val * val) :=
  match l with [] => [(VStr (lit "*"), VNone)] | _ => l end.
Inductive says_select (b : backend) : selq val -> statement -> Prop :=
| ss : forall op cols tabs wh gr ha ord lim off out fu op' cols' tabs' wh' gr' ha' ord',
    Permutation op' (options_asked op) -> Forall2 says_column (columns_asked cols) cols' ->
    Forall2 (says_table b) tabs tabs' -> says_conditions b wh wh' -> Forall2 says_order gr gr' ->
    says_conditions b ha ha' -> Forall2 says_order ord ord' ->
    says_select b (MkSel op cols tabs wh gr ha ord (MkLimits lim off) out fu)
      (StSelect op' cols' tabs' wh' gr' ha' ord' lim off fu).
Inductive says_delete (b : backend) : delq val -> statement -> Prop :=
| sd : forall ig tabs refs wh al tabs' refs' wh',
    Forall2 (says_table b) tabs tabs' -> Forall2 (says_table b) refs refs' -> says_conditions b wh wh' ->
    says_delete b (MkDel ig tabs refs wh al) (StDelete ig tabs' refs' wh').
Inductive says_assignment (b : backend) : val -> path * literal -> Prop :=
| sa : forall c x p l, path_of c = Some p -> literal_of b x = Some l -> says_assignment b (VValue c x) (p, l).
Inductive says_update (b : backend) : updq val -> statement -> Prop :=
| su : forall ig tabs vs wh al tabs' vs' wh',
    Forall2 (says_table b) tabs tabs' -> Forall2 (says_assignment b) vs vs' -> says_conditions b wh wh' ->
    says_update b (MkUpd ig tabs vs wh al) (StUpdate ig tabs' vs' wh').

(** ** The queries the properties are about *)
Definition alias_fine (b : backend) (a : val) : Prop := match a with VNone => True | _ => name_ok b a end.
Definition join_fine (b : backend) (j : join val) : Prop :=
  name_ok b (j_name j) /\ alias_fine b (j_alias j) /\ Forall (cond_ok b) (j_ons j).
(** Joins of different tables or under different aliases are never merged. *)
Definition joins_apart (js : list (join val)) : Prop := (List.length js <= 1)%nat \/ ForallOrdPairs apart js.
Definition table_fine (b : backend) (t : table val) : Prop :=
  name_ok b (tb_name t) /\ alias_fine b (tb_alias t) /\ Forall (join_fine b) (tb_joins t) /\ joins_apart (tb_joins t).
Definition select_fine (b : backend) (q : selq val) : Prop :=
  Forall (fun p => expr_ok b (fst p) /\ alias_fine b (snd p)) (s_cols q) /\
  Forall (table_fine b) (s_tabs q) /\ Forall (cond_ok b) (s_where q) /\
  Forall (fun p => expr_ok b (fst p)) (s_group q) /\ Forall (cond_ok b) (s_having q) /\
  Forall (fun p => expr_ok b (fst p)) (s_order q) /\ o_file (s_out q) = None.
Definition delete_fine (b : backend) (q : delq val) : Prop :=
  Forall (table_fine b) (d_tabs q) /\ d_refs q <> [] /\ Forall (table_fine b) (d_refs q) /\ Forall (cond_ok b) (d_where q).
Definition update_fine (b : backend) (q : updq val) : Prop :=
  u_tabs q <> [] /\ Forall (table_fine b) (u_tabs q) /\ u_vals q <> [] /\
  Forall (fun p => match p with VValue c x => name_ok b c /\ value_ok b x /\ literal_of b x <> None | _ => False end) (u_vals q) /\
  Forall (cond_ok b) (u_where q).

(** ** INSERT *)
(** What a row gives to a column: the last value named for it (SpecWhole.v), None otherwise. *)
Definition named (row : list val) : list (str * val) :=
  flat_map (fun p => match p with VValue (VStr c) x => [(c, x)] | _ => [] end) row.
Definition row_asked (b : backend) (row : list val) (c : str) : literal :=
  match last_for c (named row) with
  | Some x => match literal_of b x with Some l => l | None => LNull end
  | None => LNull
  end.
Inductive says_insert (b : backend) : insq val -> statement -> Prop :=
| si : forall re ig n rows cf p cols rows',
    path_of n = Some p ->
    (* every column named in some row, each once *)
    NoDup cols -> (forall c, In c cols <-> exists row, In row rows /\ In c (map fst (named row))) ->
    Forall2 (fun row l => l = map (row_asked b row) cols) rows rows' ->
    says_insert b (MkIns re ig [MkTable n VNone []] rows [] cf []) (StInsert re ig p (map (fun c => [c]) cols) rows').
Definition insert_fine (b : backend) (q : insq val) : Prop :=
  (exists n, i_tabs q = [MkTable n VNone []] /\ name_ok b n) /\ i_dup q = [] /\ i_upd q = [] /\
  i_rows q <> [] /\ List.concat (i_rows q) <> [] /\
  Forall (Forall (fun p => match p with
                           | VValue (VStr c) x => good_name (quote_of b) c /\ name_segments c = [c] /\ value_ok b x /\ literal_of b x <> None
                           | _ => False
                           end)) (i_rows q).

(** ** What executing a statement on a single table has to do *)
(** The row satisfies the conditions. *)
Definition selected (b : backend) (sv : server) (conds : list val) (r : row) : bool :=
  match asked_all b (compare sv) (cell sv r) conds with Some true => true | _ => false end.
(** The columns and values of an UPDATE. *)
Definition assigned (b : backend) (vs : list val) : list (str * literal) :=
  flat_map (fun p => match p with
                     | VValue c x => match path_of c, literal_of b x with
                                     | Some q, Some l => [(column_of q, l)]
                                     | _, _ => []
                                     end
                     | _ => []
                     end) vs.
Definition same_row (r s : row) : Prop := forall c, r c = s c.
