(** Specification: which statement of SpecNested.v an object of the library stands for.
    Nothing here depends on how text is produced, with one exception: joins are merged as
    [merged] of SpecClauses.v says (C34). *)
From Coq Require Import Sorted.
From Verif Require Import Base NumFmt Value Render SpecLex SpecRef SpecRead SpecLogic SpecClauses SpecWhole SpecSql SpecServer SpecNested.
Open Scope N_scope.

Definition on_off (s : sortd) : bool := match s with Asc => false | Desc => true end.
Definition is_all (t : uniont) : bool := match t with UUnion => false | UAll => true end.
(** The SELECT options that were asked for, in alphabetical order. *)
Definition options_said (o : selopts) : list str :=
  filter (fun w => existsb (seqb w) (options_asked o)) select_options.
Definition alias_said (b : backend) (a : val) (o : option path) : Prop := alias_fine b a /\ says_alias a o.
(** Plain data with a literal. *)
Definition plain_said (b : backend) (x : val) (l : literal) : Prop :=
  plain_literal b x = Some l /\
  match x with
  | VStr s => ~ reference_shaped (quote_of b) s      (* C03 *)
  | VBytes l => Forall (fun c => c < 256) l
  | _ => True
  end.
(** A word of ASCII letters, digits and underscores. *)
Definition word_ok (w : str) : Prop := w <> [] /\ forallb (fun c => word_char c && (c <? 128)) w = true.
(** The members of a list other than None. *)
Definition not_none (l : list val) : list val := filter (fun x => negb (is_None x)) l.
Fixpoint all_of (l : list ntest) : option ntest :=
  match l with
  | [] => None
  | x :: r => match all_of r with None => Some x | Some y => Some (and_then x y) end
  end.

Section Says.
Context (E : env).
Notation b := (e_be E).

(** [refers x e]: x where the library expects a column: a plain string is a name.
    [values x e]: x where it expects a value: a plain string is text. *)
Inductive refers : val -> nexpr -> Prop :=
| rf_name : forall s, good_name (quote_of b) s -> refers (VStr s) (NColumn (name_segments s))
| rf_int : forall z, refers (VInt z) (NLiteral (LInt z))
| rf_object : forall x e, object x e -> refers x e
with values : val -> nexpr -> Prop :=
| vl_plain : forall x l, plain_said b x l -> values x (NLiteral l)
| vl_object : forall x e, object x e -> values x e
(** SQL objects say the same everywhere. *)
with object : val -> nexpr -> Prop :=
| ob_value : forall x e, values x e -> object (VSqlV x) e
| ob_refer : forall x e, refers x e -> object (VSqlR x) e
| ob_agg : forall k d x e, refers x e -> object (VAgg k d x) (NCall (function_name k) d [e])
| ob_aggs : forall k d s l es, s = KList \/ s = KTuple -> l <> [] -> Forall2 refers l es ->
    object (VAgg k d (VSeq s l)) (NCall (function_name k) d es)
| ob_concat : forall cols es, cols <> [] -> Forall2 unnamed cols es ->
    object (VConcat cols) (NCall (lit "CONCAT") false es)
| ob_group_concat : forall cols ords sep es os o, cols <> [] -> Forall2 unnamed cols es -> Forall2 ordering ords os ->
    separator sep o -> object (VGroupConcat cols ords sep) (NGroupConcat es os o)
| ob_convert : forall x e ty, refers x e -> word_ok ty -> object (VConvert x (Some ty)) (NConvert e ty)
| ob_query : forall x q, query x q -> object x (NSub q)
(** A column without alias. *)
with unnamed : val * val -> nexpr -> Prop :=
| unnamed_ : forall x e, refers x e -> unnamed (x, VNone) e
with separator : val -> option nexpr -> Prop :=
| sp_none : forall x, truthy x = false -> separator x None
| sp_some : forall x e, truthy x = true -> values x e -> separator x (Some e)
with column : val * val -> nexpr * option path -> Prop :=
| column_ : forall x a e o, refers x e -> alias_said b a o -> column (x, a) (e, o)
with ordering : val * sortd -> nexpr * bool -> Prop :=
| ordering_ : forall x s e, refers x e -> ordering (x, s) (e, on_off s)

(** Conditions. *)
with condition : val -> ntest -> Prop :=
| cd_compare : forall k c rk v e o x, refers c e -> operator_of rk = Some o -> operand k v x ->
    condition (VCond k c rk v) (TCompare e o x)
| cd_in : forall k c s l e es, refers c e -> l <> [] -> existsb is_None l = false -> Forall2 values l es ->
    condition (VCond k c RIn (VSeq s l)) (TIn e false es)
| cd_not_in : forall k c s l e es, refers c e -> l <> [] -> existsb is_None l = false -> Forall2 values l es ->
    condition (VCond k c RNotIn (VSeq s l)) (TIn e true es)
(* None in the list stands for NULL *)
| cd_in_null : forall k c s l e es, refers c e -> not_none l <> [] -> existsb is_None l = true -> Forall2 values (not_none l) es ->
    condition (VCond k c RIn (VSeq s l)) (TOr (TIn e false es) (TCompare e CIs (NLiteral LNull)))
| cd_not_in_null : forall k c s l e es, refers c e -> not_none l <> [] -> existsb is_None l = true -> Forall2 values (not_none l) es ->
    condition (VCond k c RNotIn (VSeq s l)) (TAnd (TIn e true es) (TCompare e CIsNot (NLiteral LNull)))
| cd_null : forall k c s l e, refers c e -> not_none l = [] -> existsb is_None l = true ->
    condition (VCond k c RIn (VSeq s l)) (TCompare e CIs (NLiteral LNull))
| cd_not_null : forall k c s l e, refers c e -> not_none l = [] -> existsb is_None l = true ->
    condition (VCond k c RNotIn (VSeq s l)) (TCompare e CIsNot (NLiteral LNull))
| cd_in_query : forall k c v e q, refers c e -> query v q -> condition (VCond k c RIn v) (TInSub e false q)
| cd_not_in_query : forall k c v e q, refers c e -> query v q -> condition (VCond k c RNotIn v) (TInSub e true q)
| cd_exists : forall v q, query v q -> condition (VExists v) (TExists q)
| cd_q : forall ps t, conjunction ps t -> condition (VConds ps) t
| cd_not : forall ps t, conjunction ps t -> condition (VNot ps) (TNot t)
| cd_and : forall x y t u, condition x t -> condition y u -> condition (VCoC OpAnd x y) (and_then t u)
| cd_or : forall x y t u, condition x t -> condition y u -> condition (VCoC OpOr x y) (TOr t u)
(** In a join condition a plain string is a column. *)
with operand : condk -> val -> nexpr -> Prop :=
| op_value : forall k v x, match k, v with KOn, VStr _ => False | _, _ => True end -> values v x -> operand k v x
| op_column : forall s x, refers (VStr s) x -> operand KOn (VStr s) x
with conjunction : list val -> ntest -> Prop :=
| conj_ : forall ps ts t, Forall2 condition ps ts -> all_of ts = Some t -> conjunction ps t
(** A clause with conditions; missing if there are none. *)
with clause_said : list val -> option ntest -> Prop :=
| cs_none : clause_said [] None
| cs_some : forall ps t, ps <> [] -> conjunction ps t -> clause_said ps (Some t)

(** Tables. *)
with from_said : val -> nfrom -> Prop :=
| fs_name : forall x p, name_ok b x -> path_of x = Some p -> from_said x (FName p)
| fs_query : forall x q, query x q -> from_said x (FSub q)
with join_said : join val -> njoin -> Prop :=
| join_ : forall t n a ons f o e, from_said n f -> alias_said b a o -> clause_said ons e ->
    join_said (MkJoin t n a ons) (NJoin (kind_of_join t) f o e)
with table_said : table val -> nsource -> Prop :=
| tbl_ : forall n a js ms f o l, from_said n f -> alias_said b a o -> merged E js ms -> Forall2 join_said ms l ->
    table_said (MkTable n a js) (NSource f o l)

(** Queries. *)
with core_said : selq val -> ncore -> Prop :=
| core_ : forall op cols tabs wh gr ha ord lim out fu cols' tabs' wh' gr' ha',
    Forall2 column (columns_asked cols) cols' -> Forall2 table_said tabs tabs' -> clause_said wh wh' ->
    Forall2 ordering gr gr' -> clause_said ha ha' ->
    core_said (MkSel op cols tabs wh gr ha ord lim out fu) (NCore (options_said op) cols' tabs' wh' gr' ha')
with out_said : outfile val -> option nout -> Prop :=
| os_none : forall o, o_file o = None -> out_said o None
| os_some : forall f fl en ln f' fl' ln', values f f' -> fields_said fl en fl' -> given_said ln ln' ->
    (* LINES TERMINATED BY is the last option MySQL accepts *)
    en = None \/ ln = None -> out_said (MkOutfile (Some f) fl ln en) (Some (NOut f' fl' ln'))
with given_said : option val -> option nexpr -> Prop :=
| gs_none : given_said None None
| gs_some : forall v e, values v e -> given_said (Some v) (Some e)
with fields_said : option val -> option val -> option (nexpr * option nexpr) -> Prop :=
| fd_none : fields_said None None None
| fd_some : forall f f' en en', values f f' -> given_said en en' -> fields_said (Some f) en (Some (f', en'))
(** SELECTs joined by UNION: each without ORDER BY, LIMIT, INTO OUTFILE, FOR UPDATE, which
    SQL does not allow there; the right operand is not itself a union (C42). *)
with chain : val -> ncore -> list (bool * ncore) -> Prop :=
| ch_one : forall q c, core_said q c -> s_order q = [] -> s_limit q = MkLimits None None -> o_file (s_out q) = None ->
    s_forupd q = false -> chain (VSelect q) c []
| ch_union : forall t x y c us c', chain x c us -> chain y c' [] -> chain (VUnion t x y) c (us ++ [(is_all t, c')])
with query : val -> nquery -> Prop :=
| qu_select : forall q c ord out, core_said q c -> Forall2 ordering (s_order q) ord -> out_said (s_out q) out ->
    query (VSelect q) (NQuery c [] ord (l_limit (s_limit q)) (l_offset (s_limit q)) out (s_forupd q))
| qu_union : forall t x y c us, chain (VUnion t x y) c us -> query (VUnion t x y) (NQuery c us [] None None None false).

(** The other statements. *)
Inductive assignment : val -> path * nexpr -> Prop :=
| as_ : forall c x p e, name_ok b c -> path_of c = Some p -> values x e -> assignment (VValue c x) (p, e).
(** The cells of a row: the last value named for each column, NULL if there is none. *)
Inductive cell_said (row : list val) (c : str) : nexpr -> Prop :=
| ce_some : forall x e, last_for c (named row) = Some x -> values x e -> cell_said row c e
| ce_none : last_for c (named row) = None -> cell_said row c (NLiteral LNull).
Definition column_cell (p : val) : Prop :=
  match p with VValue (VStr c) _ => good_name (quote_of b) c /\ name_segments c = [c] | _ => False end.
Inductive statement_said : val -> nstatement -> Prop :=
| sm_select : forall x q, query x q -> statement_said x (NSelect q)
| sm_delete : forall ig tabs refs wh al tabs' refs' wh',
    wh <> [] \/ al = true -> refs <> [] ->
    Forall2 table_said tabs tabs' -> Forall2 table_said refs refs' -> clause_said wh wh' ->
    statement_said (VDelete (MkDel ig tabs refs wh al)) (NDelete ig tabs' refs' wh')
| sm_update : forall ig tabs vs wh al tabs' vs' wh',
    wh <> [] \/ al = true -> tabs <> [] -> vs <> [] ->
    Forall2 table_said tabs tabs' -> Forall2 assignment vs vs' -> clause_said wh wh' ->
    statement_said (VUpdate (MkUpd ig tabs vs wh al)) (NUpdate ig tabs' vs' wh')
| sm_insert : forall re ig n p rows dup cf cols rows' dup',
    name_ok b n -> path_of n = Some p -> rows <> [] -> Forall (Forall column_cell) rows ->
    (* every column named in some row, once, in alphabetical order *)
    cols <> [] -> StronglySorted SpecArgs.before cols -> (forall c, In c cols <-> exists row, In row rows /\ In c (map fst (named row))) ->
    Forall2 (fun row es => Forall2 (cell_said row) cols es) rows rows' -> Forall2 assignment dup dup' ->
    statement_said (VInsert (MkIns re ig [MkTable n VNone []] rows dup cf [])) (NInsert re ig p (map (fun c => [c]) cols) rows' dup').
End Says.
