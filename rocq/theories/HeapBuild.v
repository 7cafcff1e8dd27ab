(** The builder methods on Python objects: the code of Build.v and Queries.v again, but
    on the objects of Heap.v, where a method changes objects in place and keeps
    references to the arguments it was given. *)
From Verif Require Import Base NumFmt Value Backend Eq Render ParseArgs Build Queries Heap.
Open Scope string_scope.
Open Scope list_scope.
Open Scope nat_scope.

(** Code that reads and changes objects and may raise. *)
Definition hm (A : Type) := heap -> heap * res A.
Definition hret {A} (x : A) : hm A := fun h => (h, Ok x).
Definition hbind {A B} (m : hm A) (f : A -> hm B) : hm B := fun h =>
  match m h with
  | (h1, Ok x) => f x h1
  | (h1, Err e) => (h1, Err e)
  end.
Definition look {A} (f : heap -> res A) : hm A := fun h => (h, f h).
Notation "'doh' x <- m ; k" := (hbind m (fun x => k)) (at level 60, x pattern, m at level 59, right associativity).

(** Creating an object; writing an attribute; list.append. *)
Definition alloc (k : kind) (l : list (label * ref)) : hm addr := fun h =>
  (h ++ [MkObj k l], Ok (List.length h)).
Fixpoint set_attr (k : string) (r : ref) (l : list (label * ref)) : list (label * ref) :=
  match l with
  | [] => [(LAttr k, r)]
  | (LAttr k', r') :: l' => if String.eqb k k' then (LAttr k, r) :: l' else (LAttr k', r') :: set_attr k r l'
  | x :: l' => x :: set_attr k r l'
  end.
Fixpoint set_key (k : string) (r : ref) (l : list (label * ref)) : list (label * ref) :=
  match l with
  | (LKey, a) :: (LVal, b) :: l' =>
      match d_str a with
      | Ok s => if seqb s (lit k) then (LKey, a) :: (LVal, r) :: l' else (LKey, a) :: (LVal, b) :: set_key k r l'
      | Err _ => (LKey, a) :: (LVal, b) :: set_key k r l'
      end
  | _ => l
  end.
Definition change (p : ref) (f : list (label * ref) -> list (label * ref)) : hm unit := fun h =>
  match p with
  | RPtr p => match get h p with
              | Some (MkObj k l) => (put h p (MkObj k (f l)), Ok tt)
              | None => (h, bad)
              end
  | RAtom _ => (h, bad)
  end.
Definition assign (p : ref) (k : string) (r : ref) : hm unit := change p (set_attr k r).
Definition store (d : ref) (k : string) (r : ref) : hm unit := change d (set_key k r).
Definition push (p : ref) (r : ref) : hm unit := change p (fun l => l ++ [(LItem, r)]).

Definition av (v : val) : ref := RAtom (AVal v).
Definition astr (s : string) : ref := av (VStr (lit s)).
Definition r_none : ref := av VNone.

(** The value an object stands for.  The bound is enough (theorem [view_enough]). *)
Definition view (h : heap) (r : ref) : res val := decode h (S (List.length h)) r.

(** ** argsparser.py on references *)
Definition rkwargs := list (str * ref).
Definition seq_at (h : heap) (r : ref) : option (list ref) :=
  match r with
  | RPtr p => match get h p with
              | Some (MkObj OList l) | Some (MkObj OTuple l) => Some (items_of l)
              | _ => None
              end
  | RAtom _ => None
  end.
Definition dict_at (h : heap) (r : ref) : option (list (ref * ref)) :=
  match r with
  | RPtr p => match get h p with Some (MkObj ODict l) => Some (pairs_of l) | _ => None end
  | RAtom _ => None
  end.
Definition is_some {A} (o : option A) : bool := match o with Some _ => true | None => false end.

(** sorted(dictionary.items()): argsparser.py:122; see [sort_items]. *)
Definition rk_lt (a b : dkey * (ref * ref)) : bool :=
  match fst a, fst b with
  | DKStr x, DKStr y => sltb x y
  | DKInt x, DKInt y => (x <? y)%Z
  | _, _ => false
  end.
Definition r_sort_items (W : world) (h : heap) (items : list (ref * ref)) : res (list (ref * ref)) :=
  match items with
  | [] | [_] => Ok items
  | _ =>
      do ks <- mapM (fun p => do v <- view h (fst p); dict_key W v) items;
      if existsb is_dkother ks || dk_dup ks then Err EUnmodelled
      else if forallb is_dkstr ks || forallb is_dkint ks
           then Ok (map snd (osort rk_lt (combine ks items)))
           else Err ETypeError
  end.
Definition rkw_lt (a b : str * ref) : bool := sltb (fst a) (fst b).
Definition r_sort_kwds (kwds : rkwargs) : list (ref * ref) :=
  map (fun p => (av (VStr (fst p)), snd p)) (osort rkw_lt kwds).
(** 125-146. *)
Definition r_create_batch (o : popts) (values : list ref) : res (list ref) :=
  if Nat.ltb (p_max o) (List.length values) then Err EInvalidArgument
  else Ok (values ++ repeat r_none (p_max o - List.length values)).
Definition r_parse_list_item (h : heap) (o : popts) (item : ref) : res (list ref) :=
  match seq_at h item with
  | Some l => r_create_batch o l
  | None => if Nat.eqb (p_min o) 1 then r_create_batch o [item] else Err EInvalidArgument
  end.
Definition r_parse_items (o : popts) (items : list (ref * ref)) : res (list (list ref)) :=
  mapM (fun p => r_create_batch o [fst p; snd p]) items.
(** Parser.parse: 102-119. *)
Definition r_parse_args (W : world) (h : heap) (o : popts) (args : list ref) (kwds : rkwargs) : res (list (list ref)) :=
  let n := List.length args in
  do first <-
    match args with
    | [] => Ok []
    | a :: rest =>
        if Nat.ltb 1 (p_min o) && negb (is_some (seq_at h a))
           && Nat.leb (p_min o) n && Nat.leb n (p_max o)
        then do b <- r_create_batch o args; Ok [b]
        else match seq_at h a, dict_at h a, rest with
             | Some l, _, [] => if p_list o then mapM (r_parse_list_item h o) l else mapM (r_parse_list_item h o) args
             | _, Some _, [] => Ok []
             | _, _, _ => mapM (r_parse_list_item h o) args
             end
    end;
  do second <-
    match match args with [a] => dict_at h a | _ => None end, kwds with
    | Some items, _ =>
        if p_dict o then do s <- r_sort_items W h items; r_parse_items o s else Err EInvalidArgument
    | None, [] => Ok []
    | None, _ => if p_dict o then r_parse_items o (r_sort_kwds kwds) else Err EInvalidArgument
    end;
  Ok (first ++ second).
Definition r_nth2 (b : list ref) : ref * ref := match b with [a; c] => (a, c) | _ => (r_none, r_none) end.

(** ** QueryParts: queryparts.py *)

(** self._parts. *)
Definition parts_of (h : heap) (self : ref) : res (list ref) :=
  do p <- attr h "_parts" self; do l <- refs_at h (OInst CListOfQueryParts) p; Ok (items_of l).
(** append_part: 79-80.  Its argument has tosql() at all places it is called from. *)
Definition append_part (self x : ref) : hm unit :=
  doh p <- look (fun h => attr h "_parts" self); push p x.
(** __contains__ and append_unique_part: 53-57, 75-77; [see] reads a part, [eq] is its __eq__. *)
Definition append_unique_part {A} (see : heap -> ref -> res A) (eq : A -> A -> res bool) (self x : ref) : hm unit :=
  doh found <- look (fun h => do l <- parts_of h self; do y <- see h x; anyM (fun r => do v <- see h r; eq v y) l);
  if (found : bool) then hret tt else append_part self x.
(** A for-loop over items. *)
Fixpoint for_each {A} (f : A -> hm unit) (l : list A) : hm unit :=
  match l with
  | [] => hret tt
  | x :: r => doh _ <- f x; for_each f r
  end.
Definition check (ok : bool) : hm unit := fun h => (h, if ok then Ok tt else Err EInvalidArgument).
(** QueryParts.__init__: 42-44. *)
Definition new_parts (c : cls) (sep : string) (more : list (label * ref)) : hm addr :=
  doh p <- alloc (OInst CListOfQueryParts) [(LAttr "_separator", astr sep)];
  alloc (OInst c) ((LAttr "_parts", RPtr p) :: more).

(** ** Relations and conditions: relations.py, conditions.py *)

(** list(value): the elements; a generator is used up.  None: TypeError.  relations.py:182-187. *)
Definition list_of (r : ref) : hm (option (list ref)) := fun h =>
  match r with
  | RPtr p =>
      match get h p with
      | Some (MkObj (OList | OTuple | OSet | OFrozenset) l) => (h, Ok (Some (items_of l)))
      | Some (MkObj OGen l) => (put h p (MkObj OGen []), Ok (Some (items_of l)))
      | Some (MkObj ODict l) => (h, Ok (Some (map fst (pairs_of l))))
      | _ => (h, Ok None)
      end
  | RAtom (AVal v) => (h, Ok (option_map (map av) (py_list v)))
  | RAtom _ => (h, Ok None)
  end.
(** _RelationValue.__init__ 26-29, IN.__init__ 175-188. *)
Definition new_rel (k : relk) (r : ref) : hm addr :=
  doh r' <- match k with
            | RIn | RNotIn =>
                doh o <- list_of r;
                match o with
                | Some l => doh p <- alloc OList (map (fun x => (LItem, x)) l); hret (RPtr p)
                | None => hret r
                end
            | _ => hret r
            end;
  doh v <- look (fun h => view h r');
  doh _ <- check (check_type (rel_allowed k) v);
  alloc (OInst (CRelation k)) [(LAttr "_value", r')].
Definition cond_cls (k : condk) : cls := match k with KOn => COnCondition | _ => CCondition end.
(** Condition.__init__: conditions.py:44-47, 64-82. *)
Definition new_condition (k : condk) (c v : ref) : hm addr :=
  doh vc <- look (fun h => view h c); doh _ <- check (check_type [TStr] vc);
  doh vv <- look (fun h => view h v); doh _ <- check (check_type cond_value_types vv);
  doh rel <- match vv with
             | VRel _ _ => hret v
             | _ => doh p <- new_rel (default_rel vv) v; hret (RPtr p)
             end;
  alloc (OInst (cond_cls k)) [(LAttr "_column_name", c); (LAttr "_value", rel)].
(** Conditions.where: conditions.py:101-116, queryparts.py:10-17. *)
Definition h_where (W : world) (k : condk) (self : ref) (args : list ref) (kwds : rkwargs) : hm unit :=
  doh vs <- look (fun h => mapM (view h) args);
  match vs, kwds with
  | [v], [] =>
      if is_sql v then match args with [a] => append_part self a | _ => hret tt end
      else
        doh items <- look (fun h => r_parse_args W h pair_opts args kwds);
        for_each (fun it => let (c, x) := r_nth2 it in
          doh p <- new_condition k c x; append_unique_part view (w_eq W) self (RPtr p)) items
  | _, _ =>
      if negb (is_nilb vs) && forallb is_conds vs
      then for_each (append_unique_part view (w_eq W) self) args
      else
        doh items <- look (fun h => r_parse_args W h pair_opts args kwds);
        for_each (fun it => let (c, x) := r_nth2 it in
          doh p <- new_condition k c x; append_unique_part view (w_eq W) self (RPtr p)) items
  end.

(** ** Columns: columns.py:8-11, 32-44, 50-60 *)
Definition see_column (h : heap) (r : ref) : res (val * val) := d_column h (view h) r.
Definition new_column (c a : ref) : hm addr :=
  doh vc <- look (fun h => view h c); doh _ <- check (check_type [TStr; TInt] vc);
  doh va <- look (fun h => view h a); doh _ <- check (check_type [TStr; TNone] va);
  alloc (OInst CColumn) [(LAttr "_column_name", c); (LAttr "_alias", a)].
Definition h_columns (W : world) (self : ref) (args : list ref) (kwds : rkwargs) : hm unit :=
  doh items <- look (fun h => r_parse_args W h alias_opts args kwds);
  for_each (fun it => let (c, a) := r_nth2 it in
    doh p <- new_column c a; append_unique_part see_column (pair_eq (w_eq W)) self (RPtr p)) items.

(** ** Orders: order.py *)
Definition sort_ref (s : sortd) : ref := astr (match s with Asc => "ASC" | Desc => "DESC" end).
(** _find_order_by_column_name: 73-77. *)
Fixpoint find_order (W : world) (h : heap) (c : val) (l : list ref) : res (option ref) :=
  match l with
  | [] => Ok None
  | r :: l' =>
      do x <- attr h "_column_name" r; do v <- view h x; do e <- w_eq W v c;
      if (e : bool) then Ok (Some r) else find_order W h c l'
  end.
(** Orders.order: 58-71; Order.__init__ 13-16; the setter of sort 46-54. *)
Definition h_order1 (W : world) (self : ref) (it : list ref) : hm unit :=
  let (c, sort) := r_nth2 it in
  doh vc <- look (fun h => view h c);
  doh vs <- look (fun h => view h sort);
  doh o <- look (fun h => do l <- parts_of h self; find_order W h vc l);
  match o with
  | Some r => doh s <- look (fun _ => mk_sort (w_env W) vs); assign r "_sort" (sort_ref s)
  | None =>
      doh _ <- check (check_type [TStr; TInt] vc);
      doh s <- look (fun _ => mk_sort (w_env W) vs);
      doh p <- alloc (OInst COrder) [(LAttr "_column_name", c); (LAttr "_sort", sort_ref s)];
      append_part self (RPtr p)
  end.
Definition h_orders (W : world) (self : ref) (args : list ref) (kwds : rkwargs) : hm unit :=
  doh items <- look (fun h => r_parse_args W h alias_opts args kwds);
  for_each (h_order1 W self) items.

(** ** Limit: limit.py:34-48 *)
Definition aint (z : Z) : ref := av (VInt z).
Definition h_offset (self : ref) (r : ref) : hm unit :=
  doh v <- look (fun h => view h r);
  doh _ <- check (check_type [TNone; TInt] v);
  if truthy v then doh z <- look (fun _ => py_int v); assign self "_offset" (aint z)
  else assign self "_offset" r_none.
Definition h_limit (self : ref) (r offset : ref) : hm unit :=
  doh v <- look (fun h => view h r);
  doh _ <- check (check_type [TNone; TInt] v);
  match v with
  | VNone => doh _ <- assign self "_limit" r_none; assign self "_offset" r_none
  | _ =>
      doh z <- look (fun _ => py_int v);
      doh _ <- assign self "_limit" (aint z);
      doh vo <- look (fun h => view h offset);
      if is_none vo then hret tt else h_offset self offset
  end.

(** ** IntoOutfile: intooutfile.py:43-61 *)
Definition out_attr (f : outfield) : string :=
  match f with
  | OFile => "_into_outfile" | OFields => "_fields_terminated_by"
  | OLines => "_lines_terminated_by" | OEncl => "_optionally_enclosed_by"
  end.
Definition h_out (self : ref) (f : outfield) (r : ref) : hm unit :=
  doh v <- look (fun h => view h r);
  doh _ <- check (check_type [TStr] v);
  assign self (out_attr f) r.

(** ** Tables: tables.py *)

(** Table.__init__: 65-69, 104-116. *)
Definition new_table (n a : ref) : hm addr :=
  doh vn <- look (fun h => view h n); doh _ <- check (check_type [TStr] vn);
  doh va <- look (fun h => view h a); doh _ <- check (check_type [TNone; TStr] va);
  doh j <- alloc OList [];
  alloc (OInst CTable) [(LAttr "_table_name", n); (LAttr "_alias", a); (LAttr "_joins", RPtr j)].
Definition see_table (h : heap) (r : ref) : res (table val) := d_table h (view h) r.
(** Tables.set: 171-181. *)
Definition h_tables (W : world) (self : ref) (args : list ref) (kwds : rkwargs) : hm unit :=
  doh vs <- look (fun h => mapM (view h) args);
  let args' := map fst (filter (fun x => truthy (snd x)) (combine args vs)) in
  doh items <- look (fun h => r_parse_args W h alias_opts args' kwds);
  for_each (fun it => let (n, a) := r_nth2 it in
    doh p <- new_table n a; append_unique_part see_table (table_eq (w_eq W)) self (RPtr p)) items.
Fixpoint last_ref (l : list ref) : option ref :=
  match l with [] => None | [x] => Some x | _ :: r => last_ref r end.
(** Tables.last_table: 218-221. *)
Definition last_table (self : ref) : hm ref :=
  doh l <- look (fun h => parts_of h self);
  look (fun _ => match last_ref l with Some r => Ok r | None => Err EInvalidQuery end).
(** The joined table of Table.join: 122-130; popitem() takes the item out of the dictionary. *)
Definition joined_table (W : world) (arg : ref) : hm addr := fun h =>
  match seq_at h arg, dict_at h arg with
  | Some [n; a], _ => new_table n a h
  | _, Some [(n, a)] => (doh _ <- change arg (fun _ => []); new_table n a) h
  | _, _ =>
      (doh v <- look (fun h => view h arg);
       match v with
       | VStr _ => new_table arg r_none
       | _ => doh _ <- look (fun _ => w_str W v); look (fun _ => Err EInvalidArgument)
       end) h
  end.
Definition jointy_ref (ty : jointy) : ref :=
  aint (match ty with JInner => 0 | JLeft => 1 | JRight => 2 | JFull => 3 end).
(** Table.join: 122-136. *)
Definition h_table_join (W : world) (ty : jointy) (arg : ref) (t : ref) : hm unit :=
  doh p <- joined_table W arg;
  doh o <- new_parts COnConditions " AND " [];
  doh d <- alloc ODict [(LKey, astr "type"); (LVal, jointy_ref ty);
                        (LKey, astr "table"); (LVal, RPtr p); (LKey, astr "ons"); (LVal, RPtr o)];
  doh js <- look (fun h => attr h "_joins" t);
  push js (RPtr d).
(** Table.on: 138-141. *)
Definition h_table_on (W : world) (args : list ref) (kwds : rkwargs) (t : ref) : hm unit :=
  doh l <- look (fun h => do j <- attr h "_joins" t; do l <- refs_at h OList j; Ok (items_of l));
  doh d <- look (fun _ => match last_ref l with Some d => Ok d | None => Err EInvalidQuery end);
  doh o <- look (fun h => lookup h "ons" d);
  h_where W KOn o args kwds.
(** Tables.join ... on: 187-216. *)
Definition h_join (W : world) (ty : jointy) (self : ref) (arg : ref) : hm unit :=
  match ty with
  | JFull => if supports_full_join (e_be (w_env W)) then doh t <- last_table self; h_table_join W JFull arg t
             else look (fun _ => Err EInvalidQuery)
  | _ => doh t <- last_table self; h_table_join W ty arg t
  end.
Definition h_on (W : world) (self : ref) (args : list ref) (kwds : rkwargs) : hm unit :=
  doh t <- last_table self; h_table_on W args kwds t.

(** ** Values: values.py *)

(** Value.__init__: 9-12, 31-43. *)
Definition new_value (c v : ref) : hm addr :=
  doh vc <- look (fun h => view h c); doh _ <- check (check_type [TStr] vc);
  doh vv <- look (fun h => view h v); doh _ <- check (check_type value_types vv);
  alloc (OInst CValue) [(LAttr "_column_name", c); (LAttr "_value", v)].
(** Values.set: 47-58, queryparts.py:10-17. *)
Definition h_set (W : world) (self : ref) (args : list ref) (kwds : rkwargs) : hm unit :=
  let normal :=
    doh items <- look (fun h => r_parse_args W h pair_opts args kwds);
    for_each (fun it => let (c, x) := r_nth2 it in
      doh p <- new_value c x; append_unique_part view (w_eq W) self (RPtr p)) items in
  doh vs <- look (fun h => mapM (view h) args);
  match vs, kwds with
  | [v], [] => if is_sql v then match args with [a] => append_part self a | _ => hret tt end else normal
  | _, _ => normal
  end.
(** MultipleValues.add: 94-97. *)
Definition h_add_row (W : world) (self : ref) (args : list ref) (kwds : rkwargs) : hm unit :=
  doh p <- new_parts CValues ", " [];
  doh _ <- h_set W (RPtr p) args kwds;
  append_part self (RPtr p).
(** SqlReference(value): sqlvalue.py:147-156. *)
Definition new_reference (v : ref) : hm addr := fun h =>
  let p := List.length h in
  let m k := RPtr (p + k) in
  let meth f := MkObj OMethod [(LFunc, RAtom (AFun f)); (LSelf, RPtr p)] in
  (h ++ [MkObj (OInst CSqlReference) [(LAttr "_map", m 1); (LAttr "value", v)];
         MkObj ODict [(LKey, RAtom (AType "str")); (LVal, m 2); (LKey, RAtom (AType "int")); (LVal, m 3);
                      (LKey, RAtom (AType "Select")); (LVal, m 4); (LKey, RAtom (AType "Union")); (LVal, m 5)];
         meth "_reference"; meth "_integer"; meth "_subselect"; meth "_subselect"], Ok p).
(** OnConflictDoUpdate.set: onconflictdoupdate.py:17-25. *)
Definition h_conflict (W : world) (self : ref) (args : list ref) (kwds : rkwargs) : hm unit :=
  match args with
  | [] => look (fun _ => Err EInvalidQuery)
  | a :: rest =>
      doh v <- look (fun h => view h a);
      match v with
      | VStr _ => doh p <- new_reference a; doh _ <- assign self "_on_conflict" (RPtr p); h_set W self rest kwds
      | _ => look (fun _ => Err EInvalidQuery)
      end
  end.

(** ** Options: selectoptions.py:46-77, 94-104; insert.py:33-34, update.py:19-20, delete.py:18-19 *)
Definition selopt_entry (k : selopt) (allow : bool) : string * string :=
  let v on := if allow then on else "off" in
  match k with
  | OSqlCache => ("sql_cache", v "cache")
  | OSqlNoCache => ("sql_cache", v "no_cache")
  | OAll => ("duplicated", v "all")
  | ODistinct => ("duplicated", v "distinct")
  | ODistinctrow => ("duplicated", v "distinctrow")
  | OSmall => ("sql_small_result", v "on")
  | OBig => ("sql_big_result", v "on")
  | OBuffer => ("sql_buffer_result", v "on")
  | OCalc => ("sql_calc_found_rows", v "on")
  | OStraight => ("straight_join", v "on")
  | OHigh => ("high_priority", v "on")
  end.
Definition h_option (self : ref) (e : string * string) : hm unit :=
  doh d <- look (fun h => attr h "_options" self); store d (fst e) (astr (snd e)).
Definition h_ignore (self : ref) (allow : bool) : hm unit := h_option self ("ignore", if allow then "on" else "off").
Definition abool (b : bool) : ref := av (VBool b).

(** ** The queries: query.py:12-18 *)
Definition new_options (c : cls) (ks : list string) : hm addr :=
  doh d <- alloc ODict (flat_map (fun k => [(LKey, astr k); (LVal, astr "off")]) ks);
  alloc (OInst c) [(LAttr "_options", RPtr d)].
Definition new_query (c : cls) (more : list (label * ref)) (ps : list (string * addr)) : hm addr :=
  doh d <- alloc ODict (flat_map (fun x => [(LKey, astr (fst x)); (LVal, RPtr (snd x))]) ps);
  alloc (OInst c) ((LAttr "_queryparts", RPtr d) ::
    map (fun x => (LAttr (String.append "_" (fst x)), RPtr (snd x))) ps ++ more).
Definition selopt_keys : list string :=
  ["sql_cache"; "duplicated"; "sql_small_result"; "sql_big_result"; "sql_buffer_result"; "sql_calc_found_rows";
   "straight_join"; "high_priority"].
(** Select without columns: select.py:36-56. *)
Definition new_select : hm addr :=
  doh c <- new_parts CColumns ", " [];
  doh g <- new_parts CGroupBy ", " [];
  doh hv <- new_parts CHaving " AND " [];
  doh io <- alloc (OInst CIntoOutfile) [(LAttr "_into_outfile", r_none); (LAttr "_fields_terminated_by", r_none);
                                        (LAttr "_lines_terminated_by", r_none); (LAttr "_optionally_enclosed_by", r_none)];
  doh li <- alloc (OInst CLimit) [(LAttr "_limit", r_none); (LAttr "_offset", r_none)];
  doh ob <- new_parts COrderBy ", " [];
  doh fu <- alloc (OInst CSelectForUpdate) [(LAttr "_for_update", abool false)];
  doh so <- new_options CSelectOptions selopt_keys;
  doh t <- new_parts CTablesForSelect ", " [];
  doh w <- new_parts CWhere " AND " [];
  new_query CSelect [] [("columns", c); ("group_by", g); ("having", hv); ("into_outfile", io); ("limit", li);
    ("order_by", ob); ("select_for_update", fu); ("select_options", so); ("tables", t); ("where", w)].
(** insert.py:9-13, 49-60, onconflictdoupdate.py:9-11. *)
Definition new_insert : hm addr :=
  doh io <- new_options CInsertOptions ["ignore"];
  doh k <- alloc (OInst CInsertKeyword) [(LAttr "_is_replace", abool false)];
  doh cf <- new_parts COnConflict ", " [(LAttr "_on_conflict", astr "")];
  doh du <- new_parts COnDuplicate ", " [];
  doh t <- new_parts CTables ", " [];
  doh v <- new_parts CMultipleValues ", " [];
  new_query CInsert [] [("insert_options", io); ("keyword", k); ("on_conflict_do_update", cf);
    ("on_duplicate_key_update", du); ("tables", t); ("values", v)].
(** update.py:31-42. *)
Definition new_update : hm addr :=
  doh t <- new_parts CTables ", " [];
  doh uo <- new_options CUpdateOptions ["ignore"];
  doh v <- new_parts CValues ", " [];
  doh w <- new_parts CWhere " AND " [];
  new_query CUpdate [(LAttr "_allow_update_all", abool false)]
    [("tables", t); ("update_options", uo); ("values", v); ("where", w)].
(** delete.py:31-42. *)
Definition new_delete : hm addr :=
  doh o <- new_options CDeleteOptions ["ignore"];
  doh r <- new_parts CTables ", " [];
  doh t <- new_parts CTables ", " [];
  doh w <- new_parts CWhere " AND " [];
  new_query CDelete [(LAttr "_allow_delete_all", abool false)]
    [("delete_options", o); ("references", r); ("tables", t); ("where", w)].

(** One call of a public method, with references as arguments: see [selop] etc. *)
Inductive hselop :=
| HSColumns (args : list ref) (kwds : rkwargs) | HSFrom (args : list ref) (kwds : rkwargs) | HSFromTable (t a : ref)
| HSJoin (ty : jointy) (arg : ref) | HSOn (args : list ref) (kwds : rkwargs) | HSWhere (args : list ref) (kwds : rkwargs)
| HSHaving (args : list ref) (kwds : rkwargs) | HSGroupBy (args : list ref) (kwds : rkwargs)
| HSOrderBy (args : list ref) (kwds : rkwargs) | HSLimit (l o : ref) | HSOffset (o : ref) | HSOut (f : outfield) (v : ref)
| HSOpt (k : selopt) (allow : ref) | HSForUpdate (allow : ref).
Inductive hinsop :=
| HIInto (t : ref) | HIValues (args : list ref) (kwds : rkwargs) | HIOnDup (args : list ref) (kwds : rkwargs) | HIIgnore (allow : ref).
Inductive hupdop :=
| HUTable (t : ref) | HUSet (args : list ref) (kwds : rkwargs) | HUWhere (args : list ref) (kwds : rkwargs)
| HUJoin (ty : jointy3) (arg : ref) | HUOn (args : list ref) (kwds : rkwargs) | HUAllow | HUForbid | HUIgnore (allow : ref).
Inductive hdelop :=
| HDDelete (args : list ref) | HDFrom (args : list ref) (kwds : rkwargs) | HDFromTable (t a : ref)
| HDWhere (args : list ref) (kwds : rkwargs) | HDJoin (ty : jointy3) (arg : ref) | HDOn (args : list ref) (kwds : rkwargs)
| HDAllow | HDForbid | HDIgnore (allow : ref).

Definition at_part (k : string) (q : addr) (f : ref -> hm unit) : hm unit :=
  doh p <- look (fun h => attr h k (RPtr q)); f p.
(** from_table(table, alias) packs its arguments into a tuple: select.py:105-107, delete.py:90-92. *)
Definition in_tuple (t a : ref) (f : ref -> hm unit) : hm unit :=
  doh p <- alloc OTuple [(LItem, t); (LItem, a)]; f (RPtr p).

(** select.py:97-248. *)
Definition h_sel_call (W : world) (q : addr) (op : hselop) : hm unit :=
  match op with
  | HSColumns a k => at_part "_columns" q (fun p => h_columns W p a k)
  | HSFrom a k => at_part "_tables" q (fun p => h_tables W p a k)
  | HSFromTable t a => at_part "_tables" q (fun p => in_tuple t a (fun x => h_tables W p [x] []))
  | HSJoin ty arg => at_part "_tables" q (fun p => h_join W ty p arg)
  | HSOn a k => at_part "_tables" q (fun p => h_on W p a k)
  | HSWhere a k => at_part "_where" q (fun p => h_where W KWhere p a k)
  | HSHaving a k => at_part "_having" q (fun p => h_where W KWhere p a k)
  | HSGroupBy a k => at_part "_group_by" q (fun p => h_orders W p a k)
  | HSOrderBy a k => at_part "_order_by" q (fun p => h_orders W p a k)
  | HSLimit l o => at_part "_limit" q (fun p => h_limit p l o)
  | HSOffset o => at_part "_limit" q (fun p => h_offset p o)
  | HSOut f v => at_part "_into_outfile" q (fun p => h_out p f v)
  | HSOpt k allow =>
      at_part "_select_options" q (fun p => doh v <- look (fun h => view h allow); h_option p (selopt_entry k (truthy v)))
  | HSForUpdate allow =>
      at_part "_select_for_update" q (fun p => doh v <- look (fun h => view h allow); assign p "_for_update" (abool (truthy v)))
  end.
(** insert.py:62-90. *)
Definition h_ins_call (W : world) (q : addr) (op : hinsop) : hm unit :=
  let b := e_be (w_env W) in
  match op with
  | HIInto t => at_part "_tables" q (fun p => h_tables W p [t] [])
  | HIValues a k => at_part "_values" q (fun p => h_add_row W p a k)
  | HIIgnore allow => at_part "_insert_options" q (fun p => doh v <- look (fun h => view h allow); h_ignore p (truthy v))
  | HIOnDup a k =>
      doh _ <- (if supports_on_duplicate_key_update b
                then at_part "_on_duplicate_key_update" q (fun p => h_set W p a k) else hret tt);
      doh _ <- (if supports_on_conflict_do_update b
                then at_part "_on_conflict_do_update" q (fun p => h_conflict W p a k) else hret tt);
      if supports_replace_into b then
        if negb (is_nilb a) || negb (is_nilb k) then look (fun _ => Err EException)
        else doh d <- look (fun h => attr h "_queryparts" (RPtr q));
             doh p <- look (fun h => lookup h "keyword" d);
             assign p "_is_replace" (abool true)
      else hret tt
  end.
(** update.py:49-118. *)
Definition h_upd_call (W : world) (q : addr) (op : hupdop) : hm unit :=
  match op with
  | HUTable t => at_part "_tables" q (fun p => h_tables W p [t] [])
  | HUSet a k => at_part "_values" q (fun p => h_set W p a k)
  | HUWhere a k => at_part "_where" q (fun p => h_where W KWhere p a k)
  | HUJoin ty arg => at_part "_tables" q (fun p => h_join W (j3 ty) p arg)
  | HUOn a k => at_part "_tables" q (fun p => h_on W p a k)
  | HUAllow => assign (RPtr q) "_allow_update_all" (abool true)
  | HUForbid => assign (RPtr q) "_allow_update_all" (abool false)
  | HUIgnore allow => at_part "_update_options" q (fun p => doh v <- look (fun h => view h allow); h_ignore p (truthy v))
  end.
(** delete.py:49-126. *)
Definition h_del_call (W : world) (q : addr) (op : hdelop) : hm unit :=
  match op with
  | HDDelete a => at_part "_tables" q (fun p => h_tables W p a [])
  | HDFrom a k => at_part "_references" q (fun p => h_tables W p a k)
  | HDFromTable t a => at_part "_references" q (fun p => in_tuple t a (fun x => h_tables W p [x] []))
  | HDWhere a k => at_part "_where" q (fun p => h_where W KWhere p a k)
  | HDJoin ty arg => at_part "_references" q (fun p => h_join W (j3 ty) p arg)
  | HDOn a k => at_part "_references" q (fun p => h_on W p a k)
  | HDAllow => assign (RPtr q) "_allow_delete_all" (abool true)
  | HDForbid => assign (RPtr q) "_allow_delete_all" (abool false)
  | HDIgnore allow => at_part "_delete_options" q (fun p => doh v <- look (fun h => view h allow); h_ignore p (truthy v))
  end.
