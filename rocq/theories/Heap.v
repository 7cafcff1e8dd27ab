(** Python objects as a graph, and copy().

    The other model files treat queries as values.  Here they are what they are
    at run time: objects with identities that refer to each other, possibly in
    cycles (an SqlValue holds bound methods of itself, sqlvalue.py:40-61).

    /repo/sqlpuzzle/_common/object.py:47-48: [copy] is copy.deepcopy.  No class
    of the repository defines __deepcopy__, __copy__, __reduce__, __reduce_ex__,
    __getstate__ or __setstate__, so the algorithm below, that of the copy module
    of the standard library, is what runs. *)
From Verif Require Import Base NumFmt Value.
Open Scope nat_scope.

Definition addr := nat.

(** What copy.deepcopy treats as atomic or what cannot change: data without
    parts, types and functions. *)
Inductive atom :=
| AVal (v : val)
| AType (name : string)
| AFun (name : string).
Inductive ref := RAtom (a : atom) | RPtr (p : addr).

(** The classes of the repository whose instances are stored in a query. *)
Inductive cls :=
| CSelect | CUnion | CInsert | CUpdate | CDelete              (* _queries *)
| CSelectOptions | CSelectForUpdate | CInsertKeyword
| CInsertOptions | CUpdateOptions | CDeleteOptions
| CListOfQueryParts                                            (* queryparts.py:83-94 *)
| CColumn | CColumns | CTable | CTables | CTablesForSelect
| CCondition | CConditions | COnCondition | COnConditions | CWhere | CHaving
| CCoC | CNot | CExists
| COrder | COrderBy | CGroupBy | CLimit | CIntoOutfile
| CValue | CValues | CMultipleValues | COnDuplicate | COnConflict
| CCustomSql | CSqlValue | CSqlReference
| CRelation (k : relk)
| CAggregate (k : aggk) | CConcat | CGroupConcat | CConvert.

(** Kinds of objects with parts. *)
Inductive kind :=
| OList | ODict | OTuple | OSet | OFrozenset | OGen | OMethod | OInst (c : cls).

(** A reference inside an object: an instance attribute, an element (of a list,
    a tuple, a set, or of an instance of a list subclass), a key or a value of a
    dictionary, or the function or the object of a bound method. *)
Inductive label := LAttr (name : string) | LItem | LKey | LVal | LFunc | LSelf.

Record obj := MkObj { o_kind : kind; o_refs : list (label * ref) }.
(** Objects are numbered in the order of creation. *)
Definition heap := list obj.
Definition get (h : heap) (p : addr) : option obj := nth_error h p.
Fixpoint put (h : heap) (p : addr) (o : obj) : heap :=
  match h, p with
  | [], _ => []
  | _ :: r, O => o :: r
  | x :: r, S p' => x :: put r p' o
  end.

(** The dictionary memo of copy.deepcopy: from the identity of an object to its copy. *)
Definition memo := addr -> option addr.
Definition memo0 : memo := fun _ => None.
Definition remember (m : memo) (p q : addr) : memo := fun x => if x =? p then Some q else m x.

(** [k is j] in copy._deepcopy_tuple; an atom is always copied to itself. *)
Definition same_ref (a b : ref) : bool :=
  match a, b with
  | RPtr p, RPtr q => p =? q
  | RAtom _, RAtom _ => true
  | _, _ => false
  end.
Definition same_refs (l l' : list (label * ref)) : bool :=
  forallb (fun x => same_ref (snd (fst x)) (snd (snd x))) (combine l l').

(** Copies of the parts, from left to right. *)
Section Parts.
  Variable dc : heap -> memo -> ref -> res (heap * memo * ref).
  Fixpoint copy_parts (h : heap) (m : memo) (l : list (label * ref))
    : res (heap * memo * list (label * ref)) :=
    match l with
    | [] => Ok (h, m, [])
    | (a, r) :: l' =>
        do (h1, m1, r1) <- dc h m r;
        do (h2, m2, l2) <- copy_parts h1 m1 l';
        Ok (h2, m2, (a, r1) :: l2)
    end.
End Parts.

(** copy.deepcopy(x, memo).
    - An object seen before: its copy from the memo.
    - Lists, dictionaries and instances (_deepcopy_list, _deepcopy_dict,
      _reconstruct): the new object is remembered first, then filled with the
      copies of the parts.  Simplification: the new object gets all its parts at
      the end, not one by one; nothing looks at it in between but the memo.
      The elements of ListOfQueryParts are put in by its method append, whose
      check (queryparts.py:88-91) each of them has passed before.
    - Tuples (_deepcopy_tuple): the parts first; if none of them changed, the
      tuple itself is the result.
    - Sets, frozensets (_reconstruct with the elements as arguments) and bound
      methods (_deepcopy_method): the parts first, then a new object.
      Simplification: the elements of a set keep their order.
    - Generators cannot be copied: TypeError.
    [n] bounds the depth of the recursion; see [deepcopy]. *)
Fixpoint dcopy (n : nat) (h : heap) (m : memo) (r : ref) : res (heap * memo * ref) :=
  match n with
  | O => Err EUnmodelled
  | S n' =>
      match r with
      | RAtom _ => Ok (h, m, r)
      | RPtr p =>
          match m p with
          | Some q => Ok (h, m, RPtr q)
          | None =>
              match get h p with
              | None => Err EUnmodelled
              | Some (MkObj k l) =>
                  match k with
                  | OGen => Err ETypeError
                  | OTuple =>
                      do (h1, m1, l1) <- copy_parts (dcopy n') h m l;
                      match m1 p with
                      | Some q => Ok (h1, m1, RPtr q)
                      | None =>
                          if same_refs l l1 then Ok (h1, m1, r)
                          else Ok (h1 ++ [MkObj k l1], remember m1 p (List.length h1), RPtr (List.length h1))
                      end
                  | OSet | OFrozenset | OMethod =>
                      do (h1, m1, l1) <- copy_parts (dcopy n') h m l;
                      Ok (h1 ++ [MkObj k l1], remember m1 p (List.length h1), RPtr (List.length h1))
                  | OList | ODict | OInst _ =>
                      let q := List.length h in
                      do (h1, m1, l1) <- copy_parts (dcopy n') (h ++ [MkObj k []]) (remember m p q) l;
                      Ok (put h1 q (MkObj k l1), m1, RPtr q)
                  end
              end
          end
      end
  end.

(** Object.copy(): object.py:47-48.  The bound is enough for every heap Python
    can build (theorem C46_copy_succeeds). *)
Definition deepcopy (h : heap) (p : addr) : res (heap * addr) :=
  let n := List.length h in
  do (h1, m1, r1) <- dcopy (n * (n + 4) + n + 4) h memo0 (RPtr p);
  match r1 with RPtr q => Ok (h1, q) | RAtom _ => Err EUnmodelled end.

(** ** Reading a query out of the objects

    [decode] gives the value of the other model files that an object stands for.
    It follows the attributes the constructors set; [Err EUnmodelled] means that
    the object is not laid out as the code lays it out. *)
Definition bad {A} : res A := Err EUnmodelled.

Definition obj_at (h : heap) (r : ref) : res obj :=
  match r with
  | RPtr p => match get h p with Some o => Ok o | None => bad end
  | RAtom _ => bad
  end.
Fixpoint find_attr (k : string) (l : list (label * ref)) : res ref :=
  match l with
  | [] => bad
  | (LAttr k', r) :: l' => if String.eqb k k' then Ok r else find_attr k l'
  | _ :: l' => find_attr k l'
  end.
Fixpoint items_of (l : list (label * ref)) : list ref :=
  match l with
  | [] => []
  | (LItem, r) :: l' => r :: items_of l'
  | _ :: l' => items_of l'
  end.
Fixpoint pairs_of (l : list (label * ref)) : list (ref * ref) :=
  match l with
  | (LKey, k) :: (LVal, v) :: l' => (k, v) :: pairs_of l'
  | _ => []
  end.
Definition cls_eqb (a b : cls) : {a = b} + {a <> b}.
Proof. decide equality; decide equality. Defined.
Definition kind_eqb (a b : kind) : {a = b} + {a <> b}.
Proof. decide equality; apply cls_eqb. Defined.

Definition refs_at (h : heap) (k : kind) (r : ref) : res (list (label * ref)) :=
  do o <- obj_at h r; if kind_eqb k (o_kind o) then Ok (o_refs o) else bad.
Definition attr (h : heap) (k : string) (r : ref) : res ref :=
  do o <- obj_at h r; find_attr k (o_refs o).

(** An immutable datum.  Ranges have no parts that could change. *)
Definition immutable (v : val) : bool :=
  match v with
  | VNone | VBool _ | VInt _ | VFloat _ | VDec _ | VStr _ | VBytes _ | VDate _ | VDatetime _ _ => true
  | VSeq KRange l => forallb (fun x => match x with VInt _ => true | _ => false end) l
  | _ => false
  end.
Definition d_atom (r : ref) : res val :=
  match r with RAtom (AVal v) => if immutable v then Ok v else bad | _ => bad end.
Definition d_str (r : ref) : res str := do v <- d_atom r; match v with VStr s => Ok s | _ => bad end.
Definition d_bool (r : ref) : res bool := do v <- d_atom r; match v with VBool b => Ok b | _ => bad end.
Definition d_int_or_none (r : ref) : res (option Z) :=
  do v <- d_atom r; match v with VInt z => Ok (Some z) | VNone => Ok None | _ => bad end.

(** d[key] for a key that is a string. *)
Fixpoint find_key (k : string) (l : list (ref * ref)) : res ref :=
  match l with
  | [] => bad
  | (a, r) :: l' =>
      match d_str a with
      | Ok s => if seqb s (lit k) then Ok r else find_key k l'
      | Err _ => find_key k l'
      end
  end.
Definition lookup (h : heap) (k : string) (r : ref) : res ref :=
  do l <- refs_at h ODict r; find_key k (pairs_of l).
(** [a is b], for instances. *)
Definition is_inst (o : option obj) : bool :=
  match o with Some (MkObj (OInst _) _) => true | _ => false end.
Definition same_inst (h : heap) (a b : ref) : bool :=
  match a, b with RPtr p, RPtr q => (p =? q) && is_inst (get h p) | _, _ => false end.

(** The parts of a QueryParts instance: queryparts.py:42-44, 83-94. *)
Definition parts (h : heap) (c : cls) (r : ref) : res (list ref) :=
  do _ <- refs_at h (OInst c) r;
  do p <- attr h "_parts" r;
  do l <- refs_at h (OInst CListOfQueryParts) p;
  Ok (items_of l).

(** A part of a query, reached both through the dictionary (which str() and ==
    read) and through the attribute (which the methods use): query.py:12-18. *)
Definition qpart (h : heap) (k : string) (r : ref) : res ref :=
  do d <- attr h "_queryparts" r;
  do a <- lookup h k d;
  do b <- attr h (String.append "_" k) r;
  if same_inst h a b then Ok a else bad.

(** The methods in _map are bound to the object itself: sqlvalue.py:40-61, 147-156. *)
Definition bound_to (h : heap) (self : ref) (x : ref * ref) : bool :=
  match refs_at h OMethod (snd x) with
  | Ok [(LFunc, RAtom (AFun _)); (LSelf, s)] => same_inst h s self
  | _ => false
  end.
Definition self_bound (h : heap) (r : ref) : res unit :=
  do d <- attr h "_map" r;
  do l <- refs_at h ODict d;
  if forallb (bound_to h r) (pairs_of l) then Ok tt else bad.

Definition is_opt (o : string) (s : str) : bool := seqb s (lit o).
(** Options._options: options.py:10-14. *)
Definition option_at (h : heap) (k : string) (r : ref) : res str :=
  do d <- attr h "_options" r; do x <- lookup h k d; d_str x.
Definition on_off (s : str) : res bool :=
  if is_opt "on" s then Ok true else if is_opt "off" s then Ok false else bad.
Definition flag (h : heap) (k : string) (r : ref) : res bool :=
  do s <- option_at h k r; on_off s.

(** selectoptions.py:7-44. *)
Definition d_selopts (h : heap) (r : ref) : res selopts :=
  do _ <- refs_at h (OInst CSelectOptions) r;
  do c <- option_at h "sql_cache" r;
  do c' <- (if is_opt "off" c then Ok CacheOff else if is_opt "cache" c then Ok CacheOn
            else if is_opt "no_cache" c then Ok CacheNo else bad);
  do d <- option_at h "duplicated" r;
  do d' <- (if is_opt "off" d then Ok DupOff else if is_opt "all" d then Ok DupAll
            else if is_opt "distinct" d then Ok DupDistinct
            else if is_opt "distinctrow" d then Ok DupDistinctrow else bad);
  do f1 <- flag h "sql_small_result" r;
  do f2 <- flag h "sql_big_result" r;
  do f3 <- flag h "sql_buffer_result" r;
  do f4 <- flag h "sql_calc_found_rows" r;
  do f5 <- flag h "straight_join" r;
  do f6 <- flag h "high_priority" r;
  Ok (MkSelOpts c' d' f1 f2 f3 f4 f5 f6).
(** limit.py:7-11. *)
Definition d_limits (h : heap) (r : ref) : res limits :=
  do _ <- refs_at h (OInst CLimit) r;
  do a <- attr h "_limit" r; do a' <- d_int_or_none a;
  do b <- attr h "_offset" r; do b' <- d_int_or_none b;
  Ok (MkLimits a' b').
(** order.py:8-18, 57-66. *)
Definition d_sort (r : ref) : res sortd :=
  do s <- d_str r; if is_opt "ASC" s then Ok Asc else if is_opt "DESC" s then Ok Desc else bad.
(** tables.py:11-14. *)
Definition d_jointy (r : ref) : res jointy :=
  do v <- d_atom r;
  match v with
  | VInt 0%Z => Ok JInner | VInt 1%Z => Ok JLeft | VInt 2%Z => Ok JRight | VInt 3%Z => Ok JFull
  | _ => bad
  end.

Section Decode.
  Variable h : heap.
  Variable D : ref -> res val.

  (** columns.py:7-18. *)
  Definition d_column (r : ref) : res (val * val) :=
    do _ <- refs_at h (OInst CColumn) r;
    do c <- attr h "_column_name" r; do c' <- D c;
    do a <- attr h "_alias" r; do a' <- D a;
    Ok (c', a').
  Definition d_columns (r : ref) : res (list (val * val)) :=
    do l <- parts h CColumns r; mapM d_column l.
  (** order.py:12-18. *)
  Definition d_order (r : ref) : res (val * sortd) :=
    do _ <- refs_at h (OInst COrder) r;
    do c <- attr h "_column_name" r; do c' <- D c;
    do s <- attr h "_sort" r; do s' <- d_sort s;
    Ok (c', s').
  Definition d_orders (c : cls) (r : ref) : res (list (val * sortd)) :=
    do l <- parts h c r; mapM d_order l.
  (** tables.py:64-69, name and alias. *)
  Definition d_named (r : ref) : res (val * val) :=
    do _ <- refs_at h (OInst CTable) r;
    do c <- attr h "_table_name" r; do c' <- D c;
    do a <- attr h "_alias" r; do a' <- D a;
    Ok (c', a').
  Definition d_conds (c : cls) (r : ref) : res (list val) :=
    do l <- parts h c r; mapM D l.
  (** tables.py:132-136; the joined table has no joins of its own. *)
  Definition d_join (r : ref) : res (join val) :=
    do t <- lookup h "type" r; do t' <- d_jointy t;
    do b <- lookup h "table" r; do b' <- d_named b;
    do j <- attr h "_joins" b; do js <- refs_at h OList j;
    do o <- lookup h "ons" r; do o' <- d_conds COnConditions o;
    match js with [] => Ok (MkJoin t' (fst b') (snd b') o') | _ => bad end.
  Definition d_table (r : ref) : res (table val) :=
    do n <- d_named r;
    do j <- attr h "_joins" r; do l <- refs_at h OList j;
    do js <- mapM d_join (items_of l);
    Ok (MkTable (fst n) (snd n) js).
  Definition d_tables (c : cls) (r : ref) : res (list (table val)) :=
    do l <- parts h c r; mapM d_table l.
  Definition d_opt (r : ref) : res (option val) :=
    do v <- D r; match v with VNone => Ok None | _ => Ok (Some v) end.
  (** intooutfile.py:8-18. *)
  Definition d_outfile (r : ref) : res (outfile val) :=
    do _ <- refs_at h (OInst CIntoOutfile) r;
    do a <- attr h "_into_outfile" r; do a' <- d_opt a;
    do b <- attr h "_fields_terminated_by" r; do b' <- d_opt b;
    do c <- attr h "_lines_terminated_by" r; do c' <- d_opt c;
    do d <- attr h "_optionally_enclosed_by" r; do d' <- d_opt d;
    Ok (MkOutfile a' b' c' d').
  (** selectoptions.py:80-83. *)
  Definition d_forupd (r : ref) : res bool :=
    do _ <- refs_at h (OInst CSelectForUpdate) r;
    do a <- attr h "_for_update" r; d_bool a.
  (** select.py:36-47. *)
  Definition d_select (r : ref) : res (selq val) :=
    do p <- qpart h "select_options" r; do o <- d_selopts h p;
    do p <- qpart h "columns" r; do c <- d_columns p;
    do p <- qpart h "tables" r; do t <- d_tables CTablesForSelect p;
    do p <- qpart h "where" r; do w <- d_conds CWhere p;
    do p <- qpart h "group_by" r; do g <- d_orders CGroupBy p;
    do p <- qpart h "having" r; do hv <- d_conds CHaving p;
    do p <- qpart h "order_by" r; do ob <- d_orders COrderBy p;
    do p <- qpart h "limit" r; do li <- d_limits h p;
    do p <- qpart h "into_outfile" r; do io <- d_outfile p;
    do p <- qpart h "select_for_update" r; do fu <- d_forupd p;
    Ok (MkSel o c t w g hv ob li io fu).
  (** insert.py:9-24. *)
  Definition d_keyword (r : ref) : res bool :=
    do _ <- refs_at h (OInst CInsertKeyword) r;
    do a <- attr h "_is_replace" r; d_bool a.
  (** onconflictdoupdate.py:9-20. *)
  Definition d_conflict (r : ref) : res (option str) :=
    match r with
    | RAtom _ => do s <- d_str r; match s with [] => Ok None | _ => bad end
    | RPtr _ =>
        do _ <- refs_at h (OInst CSqlReference) r;
        do _ <- self_bound h r;
        do x <- attr h "value" r; do s <- d_str x; Ok (Some s)
    end.
  (** insert.py:49-60. *)
  Definition d_insert (r : ref) : res (insq val) :=
    do p <- qpart h "keyword" r; do k <- d_keyword p;
    do p <- qpart h "insert_options" r; do _ <- refs_at h (OInst CInsertOptions) p; do ig <- flag h "ignore" p;
    do p <- qpart h "tables" r; do t <- d_tables CTables p;
    do p <- qpart h "values" r; do l <- parts h CMultipleValues p; do rows <- mapM (d_conds CValues) l;
    do p <- qpart h "on_duplicate_key_update" r; do du <- d_conds COnDuplicate p;
    do p <- qpart h "on_conflict_do_update" r; do up <- d_conds COnConflict p;
    do c <- attr h "_on_conflict" p; do c' <- d_conflict c;
    Ok (MkIns k ig t rows du c' up).
  (** update.py:31-42. *)
  Definition d_update (r : ref) : res (updq val) :=
    do p <- qpart h "update_options" r; do _ <- refs_at h (OInst CUpdateOptions) p; do ig <- flag h "ignore" p;
    do p <- qpart h "tables" r; do t <- d_tables CTables p;
    do p <- qpart h "values" r; do v <- d_conds CValues p;
    do p <- qpart h "where" r; do w <- d_conds CWhere p;
    do a <- attr h "_allow_update_all" r; do a' <- d_bool a;
    Ok (MkUpd ig t v w a').
  (** delete.py:31-42. *)
  Definition d_delete (r : ref) : res (delq val) :=
    do p <- qpart h "delete_options" r; do _ <- refs_at h (OInst CDeleteOptions) p; do ig <- flag h "ignore" p;
    do p <- qpart h "tables" r; do t <- d_tables CTables p;
    do p <- qpart h "references" r; do f <- d_tables CTables p;
    do p <- qpart h "where" r; do w <- d_conds CWhere p;
    do a <- attr h "_allow_delete_all" r; do a' <- d_bool a;
    Ok (MkDel ig t f w a').
  (** union.py:7-9, 28-32. *)
  Definition d_union (r : ref) : res val :=
    do a <- attr h "_query1" r; do a' <- D a;
    do b <- attr h "_query2" r; do b' <- D b;
    do t <- attr h "_union_type" r; do s <- d_str t;
    if is_opt "UNION" s then Ok (VUnion UUnion a' b')
    else if is_opt "UNION ALL" s then Ok (VUnion UAll a' b') else bad.
  (** conditions.py:42-45, 76-80: the value is kept as a relation. *)
  Definition d_condition (k : condk) (r : ref) : res val :=
    do c <- attr h "_column_name" r; do c' <- D c;
    do x <- attr h "_value" r;
    do v <- D x;
    match v with VRel t v' => Ok (VCond k c' t v') | _ => bad end.
  (** conditions.py:119-123. *)
  Definition d_coc (r : ref) : res val :=
    do a <- attr h "left" r; do a' <- D a;
    do b <- attr h "right" r; do b' <- D b;
    do t <- attr h "type" r; do s <- d_str t;
    if is_opt "AND" s then Ok (VCoC OpAnd a' b')
    else if is_opt "OR" s then Ok (VCoC OpOr a' b') else bad.
  (** functions.py:168-174. *)
  Definition d_convert (r : ref) : res val :=
    do x <- attr h "_expr" r; do e <- D x;
    do t <- attr h "_type" r; do v <- d_atom t;
    match v with VNone => Ok (VConvert e None) | VStr s => Ok (VConvert e (Some s)) | _ => bad end.
  Definition d_inst (c : cls) (r : ref) : res val :=
    match c with
    | CSelect => rmap VSelect (d_select r)
    | CUnion => d_union r
    | CInsert => rmap VInsert (d_insert r)
    | CUpdate => rmap VUpdate (d_update r)
    | CDelete => rmap VDelete (d_delete r)
    | CCustomSql => do x <- attr h "_custom_sql_string" r; do s <- d_str x; Ok (VCustom s)
    | CSqlValue => do _ <- self_bound h r; do x <- attr h "value" r; do v <- D x; Ok (VSqlV v)
    | CSqlReference => do _ <- self_bound h r; do x <- attr h "value" r; do v <- D x; Ok (VSqlR v)
    | CRelation k => do x <- attr h "_value" r; do v <- D x; Ok (VRel k v)
    | CCondition => d_condition KWhere r
    | COnCondition => d_condition KOn r
    | CValue =>
        do a <- attr h "_column_name" r; do a' <- D a;
        do b <- attr h "_value" r; do b' <- D b; Ok (VValue a' b')
    | CConditions => do l <- d_conds CConditions r; Ok (VConds l)
    | CCoC => d_coc r
    | CNot => do x <- attr h "_expr" r; do l <- d_conds CConditions x; Ok (VNot l)
    | CExists => do x <- attr h "_subquery" r; do v <- D x; Ok (VExists v)
    | CAggregate k =>
        do x <- attr h "_expr" r; do e <- D x;
        do y <- attr h "_distinct" r; do b <- d_bool y; Ok (VAgg k b e)
    | CConcat => do x <- attr h "_columns" r; do l <- d_columns x; Ok (VConcat l)
    | CGroupConcat =>
        do x <- attr h "_columns" r; do l <- d_columns x;
        do y <- attr h "_order_by" r; do o <- d_orders COrderBy y;
        do z <- attr h "_separator" r; do s <- D z; Ok (VGroupConcat l o s)
    | CConvert => d_convert r
    | _ => bad
    end.
  Definition d_pair (x : ref * ref) : res (val * val) :=
    do a <- D (fst x); do b <- D (snd x); Ok (a, b).
  Definition d_body (r : ref) : res val :=
    match r with
    | RAtom _ => d_atom r
    | RPtr _ =>
        do o <- obj_at h r;
        match o_kind o with
        | OList => rmap (VSeq KList) (mapM D (items_of (o_refs o)))
        | OTuple => rmap (VSeq KTuple) (mapM D (items_of (o_refs o)))
        | OSet => rmap (VSeq KSet) (mapM D (items_of (o_refs o)))
        | OFrozenset => rmap (VSeq KFrozenset) (mapM D (items_of (o_refs o)))
        | OGen => rmap (VSeq KGen) (mapM D (items_of (o_refs o)))
        | ODict => rmap VDict (mapM d_pair (pairs_of (o_refs o)))
        | OMethod => bad
        | OInst c => d_inst c r
        end
    end.
End Decode.

(** [n] bounds the nesting of values. *)
Fixpoint decode (h : heap) (n : nat) (r : ref) : res val :=
  match n with
  | O => bad
  | S n' => d_body h (decode h n') r
  end.
