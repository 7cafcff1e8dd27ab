(** Specification: why str() of an SQL object raises.  [stops E f w v e]: v printed in the way
    [w] meets something that has no text, for which the exception is [e]. *)
From Verif Require Import Base NumFmt Value Backend Eq Render ParseArgs Build Queries History SpecArgs SpecErrors SpecSame.
Open Scope N_scope.

(** An object is printed by str(), as the name of a column or table, or as a value. *)
Inductive way := Itself | AsName | AsValue.
Definition printed (E : env) (w : way) (v : val) : res str :=
  match w with Itself => text E v | AsName => sqlref E (text E) v | AsValue => sqlvalue E (text E) v end.

(** name AS alias; an empty alias is not printed. *)
Definition named (name alias : val) : list (way * val) :=
  (AsName, name) :: if truthy alias then [(AsName, alias)] else [].
Definition names (l : list (val * val)) : list (way * val) := flat_map (fun p => named (fst p) (snd p)) l.
Definition sorted (l : list (val * sortd)) : list (way * val) := map (fun p => (AsName, fst p)) l.
Definition parts (l : list val) : list (way * val) := map (fun x => (Itself, x)) l.
(** The right side of a condition: IN and NOT IN leave out None (and the list, if it is all None);
    the str of an ON condition is a name. *)
Definition operand (k : condk) (rk : relk) (v : val) : list (way * val) :=
  match k, rk, v with
  | _, (RIn | RNotIn), VSeq _ l =>
      let rest := filter (fun x => negb (is_none x)) l in
      if existsb is_none l && is_nilb rest then [] else [(AsValue, VSeq KList rest)]
  | KOn, _, VStr _ => [(AsName, v)]
  | _, _, _ => [(AsValue, v)]
  end.
(** The argument of a function: a list or tuple is a list of names. *)
Definition argument (v : val) : list (way * val) :=
  match v with VSeq (KList | KTuple) l => map (pair AsName) l | _ => [(AsName, v)] end.
Definition tables_of (v : val) : list (table val) :=
  match v with VSelect q => s_tabs q | VInsert q => i_tabs q | VUpdate q => u_tabs q | VDelete q => d_tabs q ++ d_refs q | _ => [] end.
Definition outfile_of (o : outfile val) : list (way * val) :=
  match o_file o with Some _ => map (pair AsValue) (out_vals o) | None => [] end.
Definition tables_shown (l : list (table val)) : list (way * val) := flat_map (fun t => named (tb_name t) (tb_alias t)) l.
(** The objects that are printed when v is, except joins and the rows of an insert. *)
Definition shown (v : val) : list (way * val) :=
  match v with
  | VSqlV x => [(AsValue, x)]
  | VSqlR x => [(AsName, x)]
  | VRel _ x | VExists x => [(Itself, x)]
  | VCond k c rk x => (AsName, c) :: operand k rk x
  | VValue c x => [(AsName, c); (AsValue, x)]
  | VConds ps | VNot ps => parts ps
  | VCoC _ a b | VUnion _ a b => [(Itself, a); (Itself, b)]
  | VAgg _ _ x | VConvert x _ => argument x
  | VConcat cols => names cols
  | VGroupConcat cols ords sep => names cols ++ sorted ords ++ if truthy sep then [(AsValue, sep)] else []
  | VSelect q => names (s_cols q) ++ sorted (s_group q) ++ parts (s_having q) ++ outfile_of (s_out q) ++ sorted (s_order q) ++
                 tables_shown (s_tabs q) ++ parts (s_where q)
  | VInsert q => parts (i_upd q) ++ parts (i_dup q) ++ tables_shown (i_tabs q)
  | VUpdate q => tables_shown (u_tabs q) ++ parts (u_vals q) ++ parts (u_where q)
  | VDelete q => tables_shown (d_refs q) ++ tables_shown (d_tabs q) ++ parts (d_where q)
  | _ => []
  end.
Definition join_shown (j : join val) : list (way * val) := named (j_name j) (j_alias j) ++ parts (j_ons j).
(** A join of the same table under the same name on the same conditions as an earlier one. *)
Definition repeats (E : env) (h j : join val) : Prop :=
  py_eq E (j_name h) (j_name j) = Ok true /\ py_eq E (j_alias h) (j_alias j) = Ok true /\
  Forall2 (fun a b => py_eq E a b = Ok true) (j_ons h) (j_ons j).
(** Something given to values() that is not an assignment to a named column. *)
Definition no_column (p : val) (e : exn) : Prop :=
  match p with VValue (VStr _) _ => False | VValue _ _ | VCond _ _ _ _ => e = EUnmodelled | _ => e = EAttributeError end.

(** A possible cause may stay unseen in two places: a join that repeats an earlier one is not
    printed, and joins are compared with each other, which prints some of their objects. *)
Inductive force := Possible | Certain.
Inductive stops (E : env) (f : force) : way -> val -> exn -> Prop :=
| st_empty : forall k, k <> KGen -> stops E f AsValue (VSeq k []) EInvalidArgument
| st_item : forall k l x e, In x l -> stops E f AsValue x e -> stops E f AsValue (VSeq k l) e
| st_object : forall w v e, is_sql v = true -> stops E f Itself v e -> stops E f w v e
| st_foreign : forall v, is_sql v = false -> (forall s, v <> VStr s) -> (forall z, v <> VInt z) -> e_pystr E v = None ->
    stops E f Itself v EUnmodelled
| st_part : forall v w x e, In (w, x) (shown v) -> stops E f w x e -> stops E f Itself v e
| st_join : forall v t before j after w x e, In t (tables_of v) -> tb_joins t = before ++ j :: after ->
    (f = Certain -> forall h, In h before -> ~ repeats E h j) ->
    In (w, x) (join_shown j) -> stops E f w x e -> stops E f Itself v e
| st_compared : forall v t j x y e, f = Possible -> In t (tables_of v) -> In j (tb_joins t) -> In x (join_vals j) ->
    within y x -> is_sql y = true -> stops E f Itself y e -> stops E f Itself v e
| st_cell : forall q before c v after e, In (before ++ VValue (VStr c) v :: after) (i_rows q) ->
    (forall u, ~ In (VValue (VStr c) u) after) -> stops E f AsValue v e -> stops E f Itself (VInsert q) e
| st_column : forall q row p e, In row (i_rows q) -> In p row -> no_column p e -> stops E f Itself (VInsert q) e
| st_update : forall q, u_where q = [] -> u_allow q = false -> stops E f Itself (VUpdate q) EConfirmUpdate
| st_delete : forall q, d_where q = [] -> d_allow q = false -> stops E f Itself (VDelete q) EConfirmDelete.

(** ** Programs that render
    Data without empty lists, and SQL objects that print for every backend; in an object that is
    compared by its parts, the parts too. *)
Inductive sound (E : env) : val -> Prop :=
| sd : forall v, (is_sql v = true -> forall b, printable (with_be E b) v) -> (forall k, v <> VSeq k []) ->
    (textual_eq v = false -> forall x, In x (children v) -> sound E x) -> sound E v.
(** values(): the columns are not SQL objects. *)
Definition named_columns (op : insop) : Prop :=
  match op with
  | IValues a k => keys_ok a k /\ (forall x, a = [x] -> is_sql x = false) /\
                   forall ps, pair_args a k ps -> Forall (fun p => is_sql (fst p) = false) ps
  | IInto _ | IIgnore _ | IOnDup _ _ => True
  end.
