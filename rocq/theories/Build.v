(** Construction of the parts of a query: /repo/sqlpuzzle/relations.py and
    /repo/sqlpuzzle/_queryparts.

    A method that changes its object returns the new state and an outcome; when
    it raises, the state is what the code had reached before raising. *)
From Verif Require Import Base NumFmt Value Backend Eq Render ParseArgs.
Open Scope N_scope.

Definition outcome := res unit.

(** A Python for-loop whose body may raise: stops at the first exception. *)
Section FoldE.
  Context {S A : Type} (f : S -> A -> S * outcome).
  Fixpoint foldE (s : S) (l : list A) : S * outcome :=
    match l with
    | [] => (s, Ok tt)
    | x :: r => match f s x with
                | (s', Ok _) => foldE s' r
                | (s', Err e) => (s', Err e)
                end
    end.
End FoldE.
(** Make a whole new state or keep the old one. *)
Definition commit {S} (s : S) (x : res S) : S * outcome :=
  match x with Ok s' => (s', Ok tt) | Err e => (s, Err e) end.

(** ** Relations: relations.py *)

(** _allowed_types. *)
Definition rel_allowed (k : relk) : list pyty :=
  match k with
  | REq | RNe => [TStr; TInt; TFloat; TDec; TBool; TDate]            (* 86, 89 *)
  | RGt | RGe | RLt | RLe => [TStr; TInt; TFloat; TDec; TDate]       (* 103 *)
  | RLike | RNotLike | RRegexp => [TStr]                             (* 140, 157 *)
  | RIn | RNotIn => [TList; TTuple; TRange; TGen]                    (* 173 *)
  | RIs | RIsNot => [TBool; TNone]                                   (* 256 *)
  end.

(** list(value) when value is iterable (None: TypeError).  IN.__init__ 182-187. *)
Definition py_list (v : val) : option (list val) :=
  match v with
  | VSeq _ l => Some l
  | VStr s => Some (map (fun c => VStr [c]) s)
  | VBytes b => Some (map (fun x => VInt (Z.of_N x)) b)
  | VDict l => Some (map fst l)
  | _ => None
  end.

(** Constructor of a relation object: _RelationValue.__init__ 26-29 with
    _check_value_type 47-59; IN.__init__ 175-188 copies iterables first. *)
Definition mk_rel (k : relk) (v : val) : res val :=
  let v' := match k with
            | RIn | RNotIn => match py_list v with Some l => VSeq KList l | None => v end
            | _ => v
            end in
  if check_type (rel_allowed k) v' then Ok (VRel k v') else Err EInvalidArgument.
(** IN( *args ): 176-181. *)
Definition mk_in (k : relk) (args : list val) : res val :=
  match args with
  | [] => mk_rel k (VSeq KList [])
  | [v] => mk_rel k v
  | _ => mk_rel k (VSeq KTuple args)
  end.

(** ** Conditions: conditions.py *)

(** Condition._default_relations.get(type, EQ): 29-42, 80-81.  SqlValue and
    SqlReference objects are looked through, once. *)
Definition default_rel1 (v : val) : relk :=
  match v with
  | VNone => RIs
  | VSeq KList _ | VSeq KTuple _ | VSeq KRange _ | VSeq KGen _ => RIn
  | _ => REq
  end.
Definition default_rel (v : val) : relk :=
  match v with VSqlV x | VSqlR x => default_rel1 x | _ => default_rel1 v end.

Definition cond_value_types : list pyty :=
  [TNone; TStr; TInt; TFloat; TDec; TBool; TList; TTuple; TRange; TGen; TDate; TDatetime].

(** Condition.__init__: conditions.py:44-47, 64-82. *)
Definition mk_condition (k : condk) (c v : val) : res val :=
  if negb (check_type [TStr] c) then Err EInvalidArgument
  else if negb (check_type cond_value_types v) then Err EInvalidArgument
  else
    do rel <- match v with VRel _ _ => Ok v | _ => mk_rel (default_rel v) v end;
    match rel with
    | VRel rk x => Ok (VCond k c rk x)
    | _ => Err EUnmodelled
    end.

(** QueryParts.__contains__ and append_unique_part: queryparts.py:53-57, 75-77. *)
Definition append_unique {A} (eq : A -> A -> res bool) (ps : list A) (x : A) : res (list A) :=
  do found <- anyM (fun p => eq p x) ps;
  Ok (if found then ps else ps ++ [x]).

Definition pair_opts := MkPopts 2 2 true true.      (* conditions.py:103-108, values.py:49-54 *)
Definition alias_opts := MkPopts 1 2 true false.    (* columns.py:51-54, order.py:59-62, tables.py:174-177 *)

Definition is_conds (v : val) : bool :=
  match v with VConds _ | VCoC _ _ _ => true | _ => false end.

Definition nth2 (b : list val) : val * val :=
  match b with [a; c] => (a, c) | _ => (VNone, VNone) end.   (* batches have two entries here *)

(** Conditions.where: conditions.py:101-116 with append_custom_sql_decorator
    (queryparts.py:10-17). *)
Definition conds_where (W : world) (k : condk) (ps : list val) (args : list val) (kwds : kwargs)
  : list val * outcome :=
  match args, kwds with
  | [a], [] => if is_sql a then (ps ++ [a], Ok tt)
               else match parse_args W pair_opts args kwds with
                    | Err e => (ps, Err e)
                    | Ok items =>
                        foldE (fun s it => let (c, v) := nth2 it in
                                 commit s (do x <- mk_condition k c v; append_unique (w_eq W) s x)) ps items
                    end
  | _, _ =>
      if negb (is_nilb args) && forallb is_conds args
      then foldE (fun s x => commit s (append_unique (w_eq W) s x)) ps args
      else match parse_args W pair_opts args kwds with
           | Err e => (ps, Err e)
           | Ok items =>
               foldE (fun s it => let (c, v) := nth2 it in
                        commit s (do x <- mk_condition k c v; append_unique (w_eq W) s x)) ps items
           end
  end.

(** Q(...) and Not(...): __init__.py:126-135, conditions.py:97-99, 141-143. *)
Definition mk_Q (W : world) (args : list val) (kwds : kwargs) : res val :=
  match conds_where W KWhere [] args kwds with
  | (ps, Ok _) => Ok (VConds ps)
  | (_, Err e) => Err e
  end.
Definition mk_Not (W : world) (args : list val) (kwds : kwargs) : res val :=
  match conds_where W KWhere [] args kwds with
  | (ps, Ok _) => Ok (VNot ps)
  | (_, Err e) => Err e
  end.

(** Union.__init__: union.py:27-31, 73-86. *)
Definition mk_union (t : uniont) (a b : val) : res val :=
  if check_type [] a then if check_type [] b then Ok (VUnion t a b) else Err EInvalidArgument
  else Err EInvalidArgument.

Definition is_condition (v : val) : bool :=
  match v with VCond _ _ _ _ | VConds _ | VCoC _ _ _ => true | _ => false end.
(** a & b, a | b: conditions.py:17-25, select.py:75-95, union.py:48-68.
    Other left operands have no such operator. *)
Definition py_binop (o : bop) (a b : val) : res val :=
  match a with
  | VCond _ _ _ _ | VConds _ | VCoC _ _ _ =>
      if is_condition b then Ok (VCoC o a b) else Err ETypeError
  | VSelect _ | VUnion _ _ _ => mk_union (match o with OpAnd => UAll | OpOr => UUnion end) a b
  | _ => Err ETypeError
  end.

(** ** Columns: columns.py *)

(** Column.__init__: 8-11, 32-44. *)
Definition mk_column (c a : val) : res (val * val) :=
  if negb (check_type [TStr; TInt] c) then Err EInvalidArgument
  else if negb (check_type [TStr; TNone] a) then Err EInvalidArgument
  else Ok (c, a).
(** Columns.columns: 50-60. *)
Definition columns_add (W : world) (cols : list (val * val)) (args : list val) (kwds : kwargs)
  : list (val * val) * outcome :=
  match parse_args W alias_opts args kwds with
  | Err e => (cols, Err e)
  | Ok items =>
      foldE (fun s it => let (c, a) := nth2 it in
               commit s (do x <- mk_column c a; append_unique (pair_eq (w_eq W)) s x)) cols items
  end.

(** ** Orders: order.py *)

(** Order.sort setter: 46-54. *)
Definition mk_sort (E : env) (v : val) : res sortd :=
  if negb (check_type [TStr; TInt; TNone] v) then Err EInvalidArgument
  else match v with
       | VNone => Ok Asc
       | VStr s => let u := supper E s in
                   if seqb u (lit "ASC") then Ok Asc
                   else if seqb u (lit "DESC") then Ok Desc
                   else Err EInvalidArgument
       | _ => Err EAttributeError        (* no upper() *)
       end.
(** Orders._find_order_by_column_name (73-77) and the update of its sort (69). *)
Fixpoint order_update (W : world) (os : list (val * sortd)) (c sort : val) : res (option (list (val * sortd))) :=
  match os with
  | [] => Ok None
  | (c', s) :: rest =>
      match w_eq W c' c with
      | Err e => Err e
      | Ok true => do s' <- mk_sort (w_env W) sort; Ok (Some ((c', s') :: rest))
      | Ok false => do o <- order_update W rest c sort;
                    Ok (match o with Some rest' => Some ((c', s) :: rest') | None => None end)
      end
  end.
(** Orders.order: 58-71; Order.__init__ 13-16. *)
Definition orders_add (W : world) (os : list (val * sortd)) (args : list val) (kwds : kwargs)
  : list (val * sortd) * outcome :=
  match parse_args W alias_opts args kwds with
  | Err e => (os, Err e)
  | Ok items =>
      foldE (fun st it => let (c, sort) := nth2 it in
               commit st (do o <- order_update W st c sort;
                          match o with
                          | Some st' => Ok st'
                          | None =>
                              if negb (check_type [TStr; TInt] c) then Err EInvalidArgument
                              else do s <- mk_sort (w_env W) sort; Ok (st ++ [(c, s)])
                          end)) os items
  end.

(** ** Limit: limit.py *)

(** int(v): of an int; an SQL object cannot be converted. *)
Definition py_int (v : val) : res Z := match v with VInt z => Ok z | _ => Err ETypeError end.
(** offset: 45-48. *)
Definition set_offset (l : limits) (v : val) : limits * outcome :=
  if negb (check_type [TNone; TInt] v) then (l, Err EInvalidArgument)
  else if truthy v then
         match py_int v with
         | Ok z => (MkLimits (l_limit l) (Some z), Ok tt)
         | Err e => (l, Err e)
         end
       else (MkLimits (l_limit l) None, Ok tt).
(** limit: 34-43; [offset] is VNone when not given. *)
Definition set_limit (l : limits) (v offset : val) : limits * outcome :=
  if negb (check_type [TNone; TInt] v) then (l, Err EInvalidArgument)
  else match v with
       | VNone => (MkLimits None None, Ok tt)
       | _ => match py_int v with
              | Err e => (l, Err e)
              | Ok z => let l' := MkLimits (Some z) (l_offset l) in
                        if is_none offset then (l', Ok tt) else set_offset l' offset
              end
       end.

(** ** IntoOutfile: intooutfile.py:43-61 *)
Inductive outfield := OFile | OFields | OLines | OEncl.
Definition set_out (o : outfile val) (f : outfield) (v : val) : outfile val * outcome :=
  if negb (check_type [TStr] v) then (o, Err EInvalidArgument)
  else (match f with
        | OFile => MkOutfile (Some v) (o_fields o) (o_lines o) (o_encl o)
        | OFields => MkOutfile (o_file o) (Some v) (o_lines o) (o_encl o)
        | OLines => MkOutfile (o_file o) (o_fields o) (Some v) (o_encl o)
        | OEncl => MkOutfile (o_file o) (o_fields o) (o_lines o) (Some v)
        end, Ok tt).

(** ** Tables: tables.py *)

(** Table.__init__: 65-69, 104-116. *)
Definition mk_table (n a : val) : res (val * val) :=
  if negb (check_type [TStr] n) then Err EInvalidArgument
  else if negb (check_type [TNone; TStr] a) then Err EInvalidArgument
  else Ok (n, a).
(** Tables.set: 171-181. *)
Definition tables_set (W : world) (ts : list (table val)) (args : list val) (kwds : kwargs)
  : list (table val) * outcome :=
  match parse_args W alias_opts (filter truthy args) kwds with
  | Err e => (ts, Err e)
  | Ok items =>
      foldE (fun s it => let (n, a) := nth2 it in
               commit s (do x <- mk_table n a;
                         append_unique (table_eq (w_eq W)) s (MkTable (fst x) (snd x) []))) ts items
  end.
(** Change the last element of a list; None if there is none. *)
Fixpoint upd_last {A B} (f : A -> A * B) (l : list A) : option (list A * B) :=
  match l with
  | [] => None
  | [x] => let (y, b) := f x in Some ([y], b)
  | x :: r => match upd_last f r with
              | Some (r', b) => Some (x :: r', b)
              | None => None
              end
  end.
(** The joined table of Table.join: 122-130. *)
Definition join_target (W : world) (arg : val) : res (val * val) :=
  match arg with
  | VSeq KList [n; a] | VSeq KTuple [n; a] => mk_table n a
  | VDict [(n, a)] => mk_table n a
  | VStr _ => mk_table arg VNone
  | _ => match w_str W arg with
         | Ok _ => Err EInvalidArgument
         | Err e => Err e              (* formatting the message raised *)
         end
  end.
(** Table.join: 122-136. *)
Definition table_join (W : world) (ty : jointy) (arg : val) (t : table val) : table val * outcome :=
  commit t (do x <- join_target W arg;
            Ok (MkTable (tb_name t) (tb_alias t) (tb_joins t ++ [MkJoin ty (fst x) (snd x) []]))).
(** Table.on: 138-141. *)
Definition table_on (W : world) (args : list val) (kwds : kwargs) (t : table val) : table val * outcome :=
  match upd_last (fun j => let (ons, o) := conds_where W KOn (j_ons j) args kwds in
                           (MkJoin (j_type j) (j_name j) (j_alias j) ons, o)) (tb_joins t) with
  | None => (t, Err EInvalidQuery)
  | Some (js, o) => (MkTable (tb_name t) (tb_alias t) js, o)
  end.
(** Tables.join etc.: 187-216. *)
Definition on_last_table (f : table val -> table val * outcome) (ts : list (table val))
  : list (table val) * outcome :=
  match upd_last f ts with
  | None => (ts, Err EInvalidQuery)
  | Some (ts', o) => (ts', o)
  end.
Definition tables_join (W : world) (ty : jointy) (ts : list (table val)) (arg : val)
  : list (table val) * outcome :=
  match ty with
  | JFull => if supports_full_join (e_be (w_env W)) then on_last_table (table_join W JFull arg) ts
             else (ts, Err EInvalidQuery)
  | _ => on_last_table (table_join W ty arg) ts
  end.
Definition tables_on (W : world) (ts : list (table val)) (args : list val) (kwds : kwargs)
  : list (table val) * outcome :=
  on_last_table (table_on W args kwds) ts.
(** The caller's argument after join(arg): popitem() empties a one-item dict
    (tables.py:125-126), even when Table(...) then rejects the item. *)
Definition join_arg_after (arg : val) : val :=
  match arg with VDict [_] => VDict [] | _ => arg end.

(** ** Values: values.py *)

Definition value_types : list pyty := [TNone; TStr; TInt; TFloat; TBytes; TDec; TBool; TDate].
(** Value.__init__: 9-12, 31-43. *)
Definition mk_value (c v : val) : res val :=
  if negb (check_type [TStr] c) then Err EInvalidArgument
  else if negb (check_type value_types v) then Err EInvalidArgument
  else Ok (VValue c v).
(** Values.set: 47-58 with append_custom_sql_decorator. *)
Definition values_set (W : world) (ps : list val) (args : list val) (kwds : kwargs) : list val * outcome :=
  let normal :=
    match parse_args W pair_opts args kwds with
    | Err e => (ps, Err e)
    | Ok items =>
        foldE (fun s it => let (c, v) := nth2 it in
                 commit s (do x <- mk_value c v; append_unique (w_eq W) s x)) ps items
    end in
  match args, kwds with
  | [a], [] => if is_sql a then (ps ++ [a], Ok tt) else normal
  | _, _ => normal
  end.
(** MultipleValues.add: 94-97. *)
Definition rows_add (W : world) (rows : list (list val)) (args : list val) (kwds : kwargs)
  : list (list val) * outcome :=
  match values_set W [] args kwds with
  | (ps, Ok _) => (rows ++ [ps], Ok tt)
  | (_, Err e) => (rows, Err e)
  end.
(** OnConflictDoUpdate.set: onconflictdoupdate.py:17-25. *)
Definition conflict_set (W : world) (st : option str * list val) (args : list val) (kwds : kwargs)
  : (option str * list val) * outcome :=
  match args with
  | VStr s :: rest => let (ps, o) := values_set W (snd st) rest kwds in ((Some s, ps), o)
  | _ => (st, Err EInvalidQuery)
  end.

(** ** Functions: functions.py, where.py *)

(** FunctionWithDistinct.__init__ 48-50, Count.__init__ 73-76. *)
Definition mk_agg (k : aggk) (e : val) : val :=
  VAgg k false (match k with FCount => if truthy e then e else VStr (lit "*") | _ => e end).
(** .distinct(distinct): 52-54. *)
Definition agg_distinct (f : val) (d : val) : val :=
  match f with VAgg k _ e => VAgg k (truthy d) e | _ => f end.
(** Concat.__init__: 100-103; is_set holds even without columns because of the
    default query string of Columns. *)
Definition mk_concat (W : world) (args : list val) : res val :=
  match columns_add W [] args [] with
  | (cols, Ok _) => Ok (VConcat cols)
  | (_, Err e) => Err e
  end.
Definition mk_group_concat (W : world) (args : list val) : res val :=
  match columns_add W [] args [] with
  | (cols, Ok _) => Ok (VGroupConcat cols [] VNone)
  | (_, Err e) => Err e
  end.
(** GroupConcat.order_by 138-148 and separator 150-160. *)
Definition gc_order_by (W : world) (f : val) (args : list val) : val * outcome :=
  match f with
  | VGroupConcat cols ords sep =>
      let (ords', o) := orders_add W ords args [] in (VGroupConcat cols ords' sep, o)
  | _ => (f, Err EAttributeError)
  end.
Definition gc_separator (f : val) (sep : val) : val * outcome :=
  match f with
  | VGroupConcat cols ords _ => (VGroupConcat cols ords sep, Ok tt)
  | _ => (f, Err EAttributeError)
  end.
(** Convert.__init__ 166-170 and to 179-192. *)
Definition convert_to (W : world) (f : val) (ty : val) : val * outcome :=
  match f with
  | VConvert e _ => commit f (do s <- w_str W ty; Ok (VConvert e (Some (supper (w_env W) s))))
  | _ => (f, Err EAttributeError)
  end.
Definition mk_convert (W : world) (e ty : val) : res val :=
  if truthy ty
  then match convert_to W (VConvert e None) ty with (f, Ok _) => Ok f | (_, Err x) => Err x end
  else Ok (VConvert e None).
(** CustomSql.__init__: customsql.py:21-23. *)
Definition mk_custom (W : world) (v : val) : res val := do s <- w_str W v; Ok (VCustom s).
