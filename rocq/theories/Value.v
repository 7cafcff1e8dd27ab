(** The values of the model: Python data and sqlpuzzle objects. *)
From Verif Require Import Base NumFmt.
Open Scope N_scope.

(** /repo/sqlpuzzle/_backends/__init__.py:10-16 (BACKENDS). *)
Inductive backend := BSql | BMySql | BPostgres | BSqlite.

(** Python's sequence-like types.  A range is represented by its elements. *)
Inductive seqk := KList | KTuple | KSet | KFrozenset | KRange | KGen.

(** /repo/sqlpuzzle/relations.py:77-264, one constructor per class. *)
Inductive relk :=
| REq | RNe | RGt | RGe | RLt | RLe | RLike | RNotLike | RRegexp | RIn | RNotIn | RIs | RIsNot.

(** Condition (conditions.py:28) or OnCondition (tables.py:24). *)
Inductive condk := KWhere | KOn.
(** BinaryOperationMixin.AND / OR.  conditions.py:13-15. *)
Inductive bop := OpAnd | OpOr.
(** Aggregates of functions.py:66-93. *)
Inductive aggk := FAvg | FCount | FMax | FMin | FSum.
(** order.py:8-9. *)
Inductive sortd := Asc | Desc.
(** tables.py:11-14. *)
Inductive jointy := JInner | JLeft | JRight | JFull.
(** union.py:8-9. *)
Inductive uniont := UUnion | UAll.

(** An entry of Table._joins: tables.py:132-136 (the dict type/table/ons; the
    joined Table never has joins of its own, only a name and an alias). *)
Record join (A : Type) := MkJoin {
  j_type : jointy; j_name : A; j_alias : A; j_ons : list A }.
Arguments MkJoin {A}. Arguments j_type {A}. Arguments j_name {A}.
Arguments j_alias {A}. Arguments j_ons {A}.

(** Table: tables.py:64-69. *)
Record table (A : Type) := MkTable {
  tb_name : A; tb_alias : A; tb_joins : list (join A) }.
Arguments MkTable {A}. Arguments tb_name {A}. Arguments tb_alias {A}. Arguments tb_joins {A}.

(** SelectOptions._options: selectoptions.py:7-44. *)
Inductive cacheopt := CacheOff | CacheOn | CacheNo.
Inductive dupopt := DupOff | DupAll | DupDistinct | DupDistinctrow.
Record selopts := MkSelOpts {
  so_cache : cacheopt; so_dup : dupopt;
  so_small : bool; so_big : bool; so_buffer : bool; so_calc : bool;
  so_straight : bool; so_high : bool }.
Definition no_selopts := MkSelOpts CacheOff DupOff false false false false false false.

(** Limit: limit.py:7-11 (after int()). *)
Record limits := MkLimits { l_limit : option Z; l_offset : option Z }.

(** IntoOutfile: intooutfile.py:7-18. *)
Record outfile (A : Type) := MkOutfile {
  o_file : option A; o_fields : option A; o_lines : option A; o_encl : option A }.
Arguments MkOutfile {A}. Arguments o_file {A}. Arguments o_fields {A}.
Arguments o_lines {A}. Arguments o_encl {A}.

(** Select: select.py:36-47. *)
Record selq (A : Type) := MkSel {
  s_opts : selopts;
  s_cols : list (A * A);            (* Columns: (column_name, alias) *)
  s_tabs : list (table A);          (* TablesForSelect *)
  s_where : list A;                 (* Where *)
  s_group : list (A * sortd);       (* GroupBy *)
  s_having : list A;                (* Having *)
  s_order : list (A * sortd);       (* OrderBy *)
  s_limit : limits;
  s_out : outfile A;
  s_forupd : bool }.
Arguments MkSel {A}. Arguments s_opts {A}. Arguments s_cols {A}. Arguments s_tabs {A}.
Arguments s_where {A}. Arguments s_group {A}. Arguments s_having {A}. Arguments s_order {A}.
Arguments s_limit {A}. Arguments s_out {A}. Arguments s_forupd {A}.

(** Insert: insert.py:49-56.  Values._parts holds Value objects, or any SQL
    object put there by append_custom_sql_decorator (queryparts.py:10-17).  [i_conflict] is OnConflictDoUpdate._on_conflict:
    None stands for the initial empty string, Some s for SqlReference(s). *)
Record insq (A : Type) := MkIns {
  i_replace : bool; i_ignore : bool;
  i_tabs : list (table A);
  i_rows : list (list A);
  i_dup : list A;
  i_conflict : option str; i_upd : list A }.
Arguments MkIns {A}. Arguments i_replace {A}. Arguments i_ignore {A}. Arguments i_tabs {A}.
Arguments i_rows {A}. Arguments i_dup {A}. Arguments i_conflict {A}. Arguments i_upd {A}.

(** Update: update.py:31-42. *)
Record updq (A : Type) := MkUpd {
  u_ignore : bool; u_tabs : list (table A); u_vals : list A;
  u_where : list A; u_allow : bool }.
Arguments MkUpd {A}. Arguments u_ignore {A}. Arguments u_tabs {A}. Arguments u_vals {A}.
Arguments u_where {A}. Arguments u_allow {A}.

(** Delete: delete.py:31-42. *)
Record delq (A : Type) := MkDel {
  d_ignore : bool; d_tabs : list (table A); d_refs : list (table A);
  d_where : list A; d_allow : bool }.
Arguments MkDel {A}. Arguments d_ignore {A}. Arguments d_tabs {A}. Arguments d_refs {A}.
Arguments d_where {A}. Arguments d_allow {A}.

Inductive val :=
(* plain Python data *)
| VNone
| VBool (b : bool)
| VInt (z : Z)
| VFloat (x : num)
| VDec (x : num)
| VStr (s : str)
| VBytes (b : list N)
| VDate (d : date)
| VDatetime (d : date) (t : time)
| VSeq (k : seqk) (l : list val)
| VDict (l : list (val * val))
| VOther (id : N)                       (* any other object: identity only *)
(* sqlpuzzle objects: everything below has a tosql method *)
| VCustom (s : str)                     (* CustomSql      customsql.py:7-26 *)
| VSqlV (v : val)                       (* SqlValue       sqlvalue.py:24-127 *)
| VSqlR (v : val)                       (* SqlReference   sqlvalue.py:130-156 *)
| VRel (k : relk) (v : val)             (* relations.py *)
| VCond (k : condk) (c : val) (r : relk) (v : val)   (* Condition / OnCondition *)
| VValue (c v : val)                    (* Value          values.py:8-43 *)
| VConds (ps : list val)                (* Conditions, i.e. Q(...) *)
| VCoC (o : bop) (l r : val)            (* ConditionsOfConditions conditions.py:119-135 *)
| VNot (ps : list val)                  (* Not            conditions.py:138-143 *)
| VExists (v : val)                     (* Exists         where.py:11-17 *)
| VAgg (k : aggk) (distinct : bool) (e : val)
| VConcat (cols : list (val * val))
| VGroupConcat (cols : list (val * val)) (ords : list (val * sortd)) (sep : val)
| VConvert (e : val) (ty : option str)
| VSelect (q : selq val)
| VUnion (t : uniont) (a b : val)
| VInsert (q : insq val)
| VUpdate (q : updq val)
| VDelete (q : delq val).

(** The environment of a call: configured backend (_backends/__init__.py:9) and
    oracles for parts of Python the model leaves open:
    - [e_pystr v]: str(v) for data other than str and int (None: it raises);
    - [e_upper], [e_lower]: str.upper / str.lower of a non-ASCII character;
    - [e_word]: whether a non-ASCII character matches regex \w. *)
Record env := MkEnv {
  e_be : backend;
  e_pystr : val -> option str;
  e_upper : chr -> str;
  e_lower : chr -> str;
  e_word : chr -> bool }.

Definition supper (E : env) (s : str) : str :=
  flat_map (fun c => if c <? 128 then [ascii_upper c] else e_upper E c) s.
Definition slower (E : env) (s : str) : str :=
  flat_map (fun c => if c <? 128 then [ascii_lower c] else e_lower E c) s.
Definition wordc (E : env) (c : chr) : bool :=
  if c <? 128 then ascii_word c else e_word E c.

(** hasattr(value, 'tosql').  utils.py:14-15. *)
Definition is_sql (v : val) : bool :=
  match v with
  | VNone | VBool _ | VInt _ | VFloat _ | VDec _ | VStr _ | VBytes _ | VDate _
  | VDatetime _ _ | VSeq _ _ | VDict _ | VOther _ => false
  | _ => true
  end.

(** Python types named in isinstance checks. *)
Inductive pyty :=
| TNone | TStr | TInt | TFloat | TDec | TBool | TBytes | TDate | TDatetime
| TList | TTuple | TRange | TGen.

(** isinstance(v, ty): bool is a subclass of int, datetime of date. *)
Definition isinst (v : val) (ty : pyty) : bool :=
  match v, ty with
  | VNone, TNone | VStr _, TStr | VInt _, TInt | VBool _, TInt | VBool _, TBool
  | VFloat _, TFloat | VDec _, TDec | VBytes _, TBytes | VDate _, TDate
  | VDatetime _ _, TDate | VDatetime _ _, TDatetime
  | VSeq KList _, TList | VSeq KTuple _, TTuple | VSeq KRange _, TRange | VSeq KGen _, TGen => true
  | _, _ => false
  end.
Definition is_bool (v : val) : bool := match v with VBool _ => true | _ => false end.
Definition is_boolty (t : pyty) : bool := match t with TBool => true | _ => false end.
Definition is_list_or_tuple (v : val) : bool :=
  match v with VSeq KList _ | VSeq KTuple _ => true | _ => false end.
Definition is_none (v : val) : bool := match v with VNone => true | _ => false end.

(** check_type_decorator: utils.py:18-32; true = the call goes through. *)
Definition check_type (allowed : list pyty) (v : val) : bool :=
  negb ((negb (existsb (isinst v) allowed) || (is_bool v && negb (existsb is_boolty allowed)))
        && negb (is_sql v)).

(** bool(v).  Opaque objects are taken to be true. *)
Definition num_zero (x : num) : bool := match x with NFin _ n _ => n =? 0 | _ => false end.
Definition truthy (v : val) : bool :=
  match v with
  | VNone => false
  | VBool b => b
  | VInt z => negb (z =? 0)%Z
  | VFloat x | VDec x => negb (num_zero x)
  | VStr s => negb (is_nilb s)
  | VBytes b => negb (is_nilb b)
  | VSeq KGen _ => true
  | VSeq _ l => negb (is_nilb l)
  | VDict l => negb (is_nilb l)
  | _ => true
  end.

(** Sub-values, flattened. *)
Definition opt_vals {A} (o : option A) : list A := match o with Some x => [x] | None => [] end.
Definition pair_vals {A} (p : A * A) : list A := [fst p; snd p].
Definition join_vals {A} (j : join A) : list A := j_name j :: j_alias j :: j_ons j.
Definition table_vals {A} (t : table A) : list A :=
  tb_name t :: tb_alias t :: flat_map join_vals (tb_joins t).
Definition out_vals {A} (o : outfile A) : list A :=
  opt_vals (o_file o) ++ opt_vals (o_fields o) ++ opt_vals (o_lines o) ++ opt_vals (o_encl o).
Definition sel_vals {A} (q : selq A) : list A :=
  flat_map pair_vals (s_cols q) ++ flat_map table_vals (s_tabs q) ++ s_where q
  ++ map fst (s_group q) ++ s_having q ++ map fst (s_order q) ++ out_vals (s_out q).
Definition ins_vals {A} (q : insq A) : list A :=
  flat_map table_vals (i_tabs q) ++ List.concat (i_rows q) ++ i_dup q ++ i_upd q.
Definition upd_vals {A} (q : updq A) : list A :=
  flat_map table_vals (u_tabs q) ++ u_vals q ++ u_where q.
Definition del_vals {A} (q : delq A) : list A :=
  flat_map table_vals (d_tabs q) ++ flat_map table_vals (d_refs q) ++ d_where q.

Definition children (v : val) : list val :=
  match v with
  | VSeq _ l => l
  | VDict l => flat_map pair_vals l
  | VSqlV v | VSqlR v | VRel _ v | VExists v | VAgg _ _ v | VConvert v _ => [v]
  | VCond _ c _ v | VValue c v => [c; v]
  | VConds ps | VNot ps => ps
  | VCoC _ l r => [l; r]
  | VConcat cols => flat_map pair_vals cols
  | VGroupConcat cols ords sep => flat_map pair_vals cols ++ map fst ords ++ [sep]
  | VSelect q => sel_vals q
  | VUnion _ a b => [a; b]
  | VInsert q => ins_vals q
  | VUpdate q => upd_vals q
  | VDelete q => del_vals q
  | _ => []
  end.

(** Maximum of [f] over a list and over the records (used by [depth] only). *)
Section MaxF.
  Context {A : Type} (f : A -> nat).
  Fixpoint maxf (l : list A) : nat := match l with [] => O | x :: r => Nat.max (f x) (maxf r) end.
End MaxF.
Definition maxpair {A} (f : A -> nat) (p : A * A) : nat := match p with (a, b) => Nat.max (f a) (f b) end.
Definition maxfst {A B} (f : A -> nat) (p : A * B) : nat := match p with (a, _) => f a end.
Definition maxopt {A} (f : A -> nat) (o : option A) : nat := match o with Some a => f a | None => O end.
Definition maxjoin {A} (f : A -> nat) (j : join A) : nat :=
  match j with MkJoin _ n a ons => Nat.max (f n) (Nat.max (f a) (maxf f ons)) end.
Definition maxtable {A} (f : A -> nat) (t : table A) : nat :=
  match t with MkTable n a js => Nat.max (f n) (Nat.max (f a) (maxf (maxjoin f) js)) end.
Definition maxout {A} (f : A -> nat) (o : outfile A) : nat :=
  match o with MkOutfile a b c d =>
    Nat.max (maxopt f a) (Nat.max (maxopt f b) (Nat.max (maxopt f c) (maxopt f d))) end.
Definition maxsel {A} (f : A -> nat) (q : selq A) : nat :=
  match q with MkSel _ c t w g h o _ out _ =>
    Nat.max (maxf (maxpair f) c) (Nat.max (maxf (maxtable f) t) (Nat.max (maxf f w)
      (Nat.max (maxf (maxfst f) g) (Nat.max (maxf f h) (Nat.max (maxf (maxfst f) o) (maxout f out))))))
  end.
Definition maxins {A} (f : A -> nat) (q : insq A) : nat :=
  match q with MkIns _ _ t rows dup _ upd =>
    Nat.max (maxf (maxtable f) t) (Nat.max (maxf (maxf f) rows)
      (Nat.max (maxf f dup) (maxf f upd))) end.
Definition maxupd {A} (f : A -> nat) (q : updq A) : nat :=
  match q with MkUpd _ t vs w _ =>
    Nat.max (maxf (maxtable f) t) (Nat.max (maxf f vs) (maxf f w)) end.
Definition maxdel {A} (f : A -> nat) (q : delq A) : nat :=
  match q with MkDel _ t r w _ =>
    Nat.max (maxf (maxtable f) t) (Nat.max (maxf (maxtable f) r) (maxf f w)) end.

(** Nesting depth of a value (only a recursion measure). *)
Fixpoint depth (v : val) : nat :=
  match v with
  | VSeq _ l => S (maxf depth l)
  | VDict l => S (maxf (maxpair depth) l)
  | VSqlV v | VSqlR v | VRel _ v | VExists v | VAgg _ _ v | VConvert v _ => S (depth v)
  | VCond _ c _ v | VValue c v => S (Nat.max (depth c) (depth v))
  | VConds ps | VNot ps => S (maxf depth ps)
  | VCoC _ l r => S (Nat.max (depth l) (depth r))
  | VConcat cols => S (maxf (maxpair depth) cols)
  | VGroupConcat cols ords sep =>
      S (Nat.max (maxf (maxpair depth) cols) (Nat.max (maxf (maxfst depth) ords) (depth sep)))
  | VSelect q => S (maxsel depth q)
  | VUnion _ a b => S (Nat.max (depth a) (depth b))
  | VInsert q => S (maxins depth q)
  | VUpdate q => S (maxupd depth q)
  | VDelete q => S (maxdel depth q)
  | _ => 1%nat
  end.
