(** /repo/sqlpuzzle/_queries: the public operations of the query objects, and
    the module-level constructors of /repo/sqlpuzzle/__init__.py. *)
From Verif Require Import Base NumFmt Value Backend Eq Render ParseArgs Build Pattern.
Open Scope N_scope.

(** ** Select: select.py *)

(** Methods of SelectOptions: selectoptions.py:46-77. *)
Inductive selopt :=
| OSqlCache | OSqlNoCache | OAll | ODistinct | ODistinctrow | OSmall | OBig | OBuffer
| OCalc | OStraight | OHigh.
Definition set_selopt (o : selopts) (k : selopt) (allow : bool) : selopts :=
  let '(MkSelOpts ca du sm bi bu cf sj hp) := o in
  match k with
  | OSqlCache => MkSelOpts (if allow then CacheOn else CacheOff) du sm bi bu cf sj hp       (* 46-47 *)
  | OSqlNoCache => MkSelOpts (if allow then CacheNo else CacheOff) du sm bi bu cf sj hp     (* 49-50 *)
  | OAll => MkSelOpts ca (if allow then DupAll else DupOff) sm bi bu cf sj hp               (* 52-53 *)
  | ODistinct => MkSelOpts ca (if allow then DupDistinct else DupOff) sm bi bu cf sj hp     (* 55-56 *)
  | ODistinctrow => MkSelOpts ca (if allow then DupDistinctrow else DupOff) sm bi bu cf sj hp
  | OSmall => MkSelOpts ca du allow bi bu cf sj hp
  | OBig => MkSelOpts ca du sm allow bu cf sj hp
  | OBuffer => MkSelOpts ca du sm bi allow cf sj hp
  | OCalc => MkSelOpts ca du sm bi bu allow sj hp
  | OStraight => MkSelOpts ca du sm bi bu cf allow hp
  | OHigh => MkSelOpts ca du sm bi bu cf sj allow
  end.

(** One call of a public method, with its arguments. *)
Inductive selop :=
| SColumns (args : list val) (kwds : kwargs)      (* columns        97-99   *)
| SFrom (args : list val) (kwds : kwargs)         (* from_, from_tables 101-109 *)
| SFromTable (t a : val)                          (* from_table     105-107 *)
| SJoin (ty : jointy) (arg : val)                 (* join, inner_join, left_join, right_join, full_join 111-132 *)
| SOn (args : list val) (kwds : kwargs)           (* on             134-136 *)
| SWhere (args : list val) (kwds : kwargs)        (* where          138-140 *)
| SHaving (args : list val) (kwds : kwargs)       (* having         142-144 *)
| SGroupBy (args : list val) (kwds : kwargs)      (* group_by       146-159 *)
| SOrderBy (args : list val) (kwds : kwargs)      (* order_by       161-174 *)
| SLimit (l o : val)                              (* limit          176-178 *)
| SOffset (o : val)                               (* offset         180-182 *)
| SOut (f : outfield) (v : val)                   (* into_outfile ... optionally_enclosed_by 184-198 *)
| SOpt (k : selopt) (allow : val)                 (* sql_cache ... high_priority 202-244 *)
| SForUpdate (allow : val).                       (* for_update     246-248 *)

Definition empty_select : selq val :=
  MkSel no_selopts [] [] [] [] [] [] (MkLimits None None) (MkOutfile None None None None) false.

Definition with_cols (q : selq val) c := MkSel (s_opts q) c (s_tabs q) (s_where q) (s_group q) (s_having q) (s_order q) (s_limit q) (s_out q) (s_forupd q).
Definition with_tabs (q : selq val) t := MkSel (s_opts q) (s_cols q) t (s_where q) (s_group q) (s_having q) (s_order q) (s_limit q) (s_out q) (s_forupd q).
Definition with_where (q : selq val) w := MkSel (s_opts q) (s_cols q) (s_tabs q) w (s_group q) (s_having q) (s_order q) (s_limit q) (s_out q) (s_forupd q).
Definition with_group (q : selq val) g := MkSel (s_opts q) (s_cols q) (s_tabs q) (s_where q) g (s_having q) (s_order q) (s_limit q) (s_out q) (s_forupd q).
Definition with_having (q : selq val) h := MkSel (s_opts q) (s_cols q) (s_tabs q) (s_where q) (s_group q) h (s_order q) (s_limit q) (s_out q) (s_forupd q).
Definition with_order (q : selq val) o := MkSel (s_opts q) (s_cols q) (s_tabs q) (s_where q) (s_group q) (s_having q) o (s_limit q) (s_out q) (s_forupd q).
Definition with_limit (q : selq val) l := MkSel (s_opts q) (s_cols q) (s_tabs q) (s_where q) (s_group q) (s_having q) (s_order q) l (s_out q) (s_forupd q).
Definition with_out (q : selq val) o := MkSel (s_opts q) (s_cols q) (s_tabs q) (s_where q) (s_group q) (s_having q) (s_order q) (s_limit q) o (s_forupd q).
Definition with_opts (q : selq val) o := MkSel o (s_cols q) (s_tabs q) (s_where q) (s_group q) (s_having q) (s_order q) (s_limit q) (s_out q) (s_forupd q).
Definition with_forupd (q : selq val) b := MkSel (s_opts q) (s_cols q) (s_tabs q) (s_where q) (s_group q) (s_having q) (s_order q) (s_limit q) (s_out q) b.

Definition lift1 {P Q} (f : P -> Q) (x : P * outcome) : Q * outcome := (f (fst x), snd x).

Definition sel_step (W : world) (q : selq val) (op : selop) : selq val * outcome :=
  match op with
  | SColumns a k => lift1 (with_cols q) (columns_add W (s_cols q) a k)
  | SFrom a k => lift1 (with_tabs q) (tables_set W (s_tabs q) a k)
  | SFromTable t a => lift1 (with_tabs q) (tables_set W (s_tabs q) [VSeq KTuple [t; a]] [])
  | SJoin ty arg => lift1 (with_tabs q) (tables_join W ty (s_tabs q) arg)
  | SOn a k => lift1 (with_tabs q) (tables_on W (s_tabs q) a k)
  | SWhere a k => lift1 (with_where q) (conds_where W KWhere (s_where q) a k)
  | SHaving a k => lift1 (with_having q) (conds_where W KWhere (s_having q) a k)
  | SGroupBy a k => lift1 (with_group q) (orders_add W (s_group q) a k)
  | SOrderBy a k => lift1 (with_order q) (orders_add W (s_order q) a k)
  | SLimit l o => lift1 (with_limit q) (set_limit (s_limit q) l o)
  | SOffset o => lift1 (with_limit q) (set_offset (s_limit q) o)
  | SOut f v => lift1 (with_out q) (set_out (s_out q) f v)
  | SOpt k allow => (with_opts q (set_selopt (s_opts q) k (truthy allow)), Ok tt)
  | SForUpdate allow => (with_forupd q (truthy allow), Ok tt)
  end.
(** A chain of calls on one object; calls after a raised exception do not happen. *)
Definition sel_run (W : world) (q : selq val) (ops : list selop) : selq val * outcome :=
  foldE (sel_step W) q ops.

(** ** Insert: insert.py *)
Inductive insop :=
| IInto (t : val)                                 (* into   62-64 *)
| IValues (args : list val) (kwds : kwargs)       (* values 66-68 *)
| IOnDup (args : list val) (kwds : kwargs)        (* on_duplicate_key_update 70-84 *)
| IIgnore (allow : val).                          (* ignore 88-90 *)
Definition empty_insert : insq val := MkIns false false [] [] [] None [].
Definition ins_step (W : world) (q : insq val) (op : insop) : insq val * outcome :=
  let '(MkIns rp ig tabs rows dup cf upd) := q in
  let b := e_be (w_env W) in
  match op with
  | IInto t => lift1 (fun x => MkIns rp ig x rows dup cf upd) (tables_set W tabs [t] [])
  | IValues a k => lift1 (fun x => MkIns rp ig tabs x dup cf upd) (rows_add W rows a k)
  | IIgnore allow => (MkIns rp (truthy allow) tabs rows dup cf upd, Ok tt)
  | IOnDup a k =>
      let (dup', o1) := if supports_on_duplicate_key_update b then values_set W dup a k else (dup, Ok tt) in
      match o1 with
      | Err e => (MkIns rp ig tabs rows dup' cf upd, Err e)
      | Ok _ =>
          let '((cf', upd'), o2) :=
            if supports_on_conflict_do_update b then conflict_set W (cf, upd) a k else ((cf, upd), Ok tt) in
          match o2 with
          | Err e => (MkIns rp ig tabs rows dup' cf' upd', Err e)
          | Ok _ =>
              if supports_replace_into b then
                if negb (is_nilb a) || negb (is_nilb k)
                then (MkIns rp ig tabs rows dup' cf' upd', Err EException)
                else (MkIns true ig tabs rows dup' cf' upd', Ok tt)
              else (MkIns rp ig tabs rows dup' cf' upd', Ok tt)
          end
      end
  end.
Definition ins_run (W : world) (q : insq val) (ops : list insop) : insq val * outcome :=
  foldE (ins_step W) q ops.

(** ** Update: update.py *)
Inductive jointy3 := J3Inner | J3Left | J3Right.   (* no full_join on Update and Delete *)
Definition j3 (t : jointy3) : jointy := match t with J3Inner => JInner | J3Left => JLeft | J3Right => JRight end.
Inductive updop :=
| UTable (t : val)                                (* table 82-84 *)
| USet (args : list val) (kwds : kwargs)          (* set   86-88 *)
| UWhere (args : list val) (kwds : kwargs)        (* where 90-92 *)
| UJoin (ty : jointy3) (arg : val)                (* join, inner_join, left_join, right_join 94-108 *)
| UOn (args : list val) (kwds : kwargs)           (* on    110-112 *)
| UAllow | UForbid                                (* allow_update_all 49-68, forbid_update_all 70-80 *)
| UIgnore (allow : val).                          (* ignore 116-118 *)
Definition empty_update : updq val := MkUpd false [] [] [] false.
Definition upd_step (W : world) (q : updq val) (op : updop) : updq val * outcome :=
  let '(MkUpd ig tabs vals wh al) := q in
  match op with
  | UTable t => lift1 (fun x => MkUpd ig x vals wh al) (tables_set W tabs [t] [])
  | USet a k => lift1 (fun x => MkUpd ig tabs x wh al) (values_set W vals a k)
  | UWhere a k => lift1 (fun x => MkUpd ig tabs vals x al) (conds_where W KWhere wh a k)
  | UJoin ty arg => lift1 (fun x => MkUpd ig x vals wh al) (tables_join W (j3 ty) tabs arg)
  | UOn a k => lift1 (fun x => MkUpd ig x vals wh al) (tables_on W tabs a k)
  | UAllow => (MkUpd ig tabs vals wh true, Ok tt)
  | UForbid => (MkUpd ig tabs vals wh false, Ok tt)
  | UIgnore allow => (MkUpd (truthy allow) tabs vals wh al, Ok tt)
  end.
Definition upd_run (W : world) (q : updq val) (ops : list updop) : updq val * outcome :=
  foldE (upd_step W) q ops.

(** ** Delete: delete.py *)
Inductive delop :=
| DDelete (args : list val)                       (* delete 82-84 *)
| DFrom (args : list val) (kwds : kwargs)         (* from_, from_tables 86-96 *)
| DFromTable (t a : val)                          (* from_table 90-92 *)
| DWhere (args : list val) (kwds : kwargs)        (* where  118-120 *)
| DJoin (ty : jointy3) (arg : val)                (* join ... right_join 98-112 *)
| DOn (args : list val) (kwds : kwargs)           (* on     114-116 *)
| DAllow | DForbid                                (* allow_delete_all 49-68, forbid_delete_all 70-80 *)
| DIgnore (allow : val).                          (* ignore 124-126 *)
Definition empty_delete : delq val := MkDel false [] [] [] false.
Definition del_step (W : world) (q : delq val) (op : delop) : delq val * outcome :=
  let '(MkDel ig tabs refs wh al) := q in
  match op with
  | DDelete a => lift1 (fun x => MkDel ig x refs wh al) (tables_set W tabs a [])
  | DFrom a k => lift1 (fun x => MkDel ig tabs x wh al) (tables_set W refs a k)
  | DFromTable t a => lift1 (fun x => MkDel ig tabs x wh al) (tables_set W refs [VSeq KTuple [t; a]] [])
  | DWhere a k => lift1 (fun x => MkDel ig tabs refs x al) (conds_where W KWhere wh a k)
  | DJoin ty arg => lift1 (fun x => MkDel ig tabs x wh al) (tables_join W (j3 ty) refs arg)
  | DOn a k => lift1 (fun x => MkDel ig tabs x wh al) (tables_on W refs a k)
  | DAllow => (MkDel ig tabs refs wh true, Ok tt)
  | DForbid => (MkDel ig tabs refs wh false, Ok tt)
  | DIgnore allow => (MkDel (truthy allow) tabs refs wh al, Ok tt)
  end.
Definition del_run (W : world) (q : delq val) (ops : list delop) : delq val * outcome :=
  foldE (del_step W) q ops.

(** ** Module-level constructors: __init__.py.  They give an object or raise. *)
Definition made {Q} (x : Q * outcome) : res Q :=
  match x with (q, Ok _) => Ok q | (_, Err e) => Err e end.
(** select 71-76, Select.__init__ select.py:54-56. *)
Definition mk_select (W : world) args kwds : res (selq val) := made (sel_step W empty_select (SColumns args kwds)).
(** select_from 79-84. *)
Definition mk_select_from (W : world) args kwds : res (selq val) := made (sel_step W empty_select (SFrom args kwds)).
(** insert_into 95-99. *)
Definition mk_insert_into (W : world) t : res (insq val) := made (ins_step W empty_insert (IInto t)).
(** update 102-106, Update.__init__ update.py:39-42. *)
Definition mk_update (W : world) t : res (updq val) := made (upd_step W empty_update (UTable t)).
(** delete 109-115, Delete.__init__ delete.py:39-42. *)
Definition mk_delete (W : world) args : res (delq val) := made (del_step W empty_delete (DDelete args)).
(** delete_from 118-123. *)
Definition mk_delete_from (W : world) args kwds : res (delq val) := made (del_step W empty_delete (DFrom args kwds)).

(** ** has: query.py:46-61, select.py:61-73 *)

(** has(part, value), given str(part): queryparts.py:20-25,
    re.search(r'([^\w]|^){}([^\w]|$)'.format(value), str(part)). *)
Definition has_text (E : env) (w : str) (t : res str) : res bool :=
  do s <- t;
  do x <- x_parse (lit "([^\w]|^)" ++ w ++ lit "([^\w]|$)");
  Ok (x_search E x true s).

(** A query part as has() sees it: is_set, str() and the kind of has(). *)
Inductive hkind := HPart | HOptions | HForUpdate.
Definition has_attr_names : list str :=
  map lit ["has"; "is_set"; "for_update"; "_for_update"; "tosql"; "copy"]%string.
(** part.has(value): queryparts.py:33-34, 72-73; options.py:30-31; selectoptions.py:100-101. *)
Definition part_has (W : world) (k : hkind) (t : res str) (value : val) : res bool :=
  match k with
  | HPart => do w <- w_str W value; has_text (w_env W) w t
  | HOptions => do w <- w_str W value; has_text (w_env W) (supper (w_env W) w) t
  | HForUpdate =>
      match value with
      | VStr s => if existsb (seqb s) has_attr_names then Ok true
                  else match s with
                       | 95 :: 95 :: _ => Err EUnmodelled
                       | _ => Ok false
                       end
      | _ => Err ETypeError
      end
  end.
(** Query.has on the named part (None: no such key). *)
Definition query_has (W : world) (part : option (bool * res str * hkind)) (value : val) : res bool :=
  match part with
  | None => Ok false
  | Some (is_set, t, k) =>
      if is_set then if truthy value then part_has W k t value else Ok true else Ok false
  end.

Definition sel_part (E : env) (r : val -> res str) (q : selq val) (n : str) : option (bool * res str * hkind) :=
  if seqb n (lit "select_options") then Some (selopts_set (s_opts q), Ok (selopts_str (s_opts q)), HOptions)
  else if seqb n (lit "columns") then Some (true, columns_str E r (s_cols q), HPart)
  else if seqb n (lit "tables") then Some (negb (is_nilb (s_tabs q)), tables_str E r (lit "FROM") (s_tabs q), HPart)
  else if seqb n (lit "where") then Some (negb (is_nilb (s_where q)), conds_str r (lit "WHERE") (s_where q), HPart)
  else if seqb n (lit "group_by") then Some (negb (is_nilb (s_group q)), orders_str E r (lit "GROUP BY") (s_group q), HPart)
  else if seqb n (lit "having") then Some (negb (is_nilb (s_having q)), conds_str r (lit "HAVING") (s_having q), HPart)
  else if seqb n (lit "order_by") then Some (negb (is_nilb (s_order q)), orders_str E r (lit "ORDER BY") (s_order q), HPart)
  else if seqb n (lit "limit") then Some (limit_set (s_limit q), Ok (limit_str (s_limit q)), HPart)
  else if seqb n (lit "into_outfile") then Some (out_set (s_out q), out_str E r (s_out q), HPart)
  else if seqb n (lit "select_for_update") then Some (s_forupd q, Ok (lit "FOR UPDATE"), HForUpdate)
  else None.
(** Select.has(name, value). *)
Definition sel_has (W : world) (q : selq val) (n : str) (value : val) : res bool :=
  let part := sel_part (w_env W) (w_str W) q in
  do b <- query_has W (part n) value;
  if (b : bool) then Ok true
  else if truthy value then Ok false
  else query_has W (part (lit "select_options")) (VStr n).

(** Insert.has; the keyword part has no is_set (AttributeError). *)
Definition ins_part (E : env) (r : val -> res str) (q : insq val) (n : str) : option (bool * res str * hkind) :=
  if seqb n (lit "insert_options") then Some (i_ignore q, Ok (lit "IGNORE"), HOptions)
  else if seqb n (lit "tables") then Some (negb (is_nilb (i_tabs q)), tables_str E r [] (i_tabs q), HPart)
  else if seqb n (lit "values") then Some (negb (is_nilb (i_rows q)), rows_str E r (i_rows q), HPart)
  else if seqb n (lit "on_duplicate_key_update") then
    Some (negb (is_nilb (i_dup q)), values_str r (lit "ON DUPLICATE KEY UPDATE") (i_dup q), HPart)
  else if seqb n (lit "on_conflict_do_update") then
    Some (negb (is_nilb (i_upd q)), values_str r (conflict_keyword E (i_conflict q)) (i_upd q), HPart)
  else None.
Definition ins_has (W : world) (q : insq val) (n : str) (value : val) : res bool :=
  if seqb n (lit "keyword") then Err EAttributeError
  else query_has W (ins_part (w_env W) (w_str W) q n) value.
Definition upd_part (E : env) (r : val -> res str) (q : updq val) (n : str) : option (bool * res str * hkind) :=
  if seqb n (lit "update_options") then Some (u_ignore q, Ok (lit "IGNORE"), HOptions)
  else if seqb n (lit "tables") then Some (negb (is_nilb (u_tabs q)), tables_str E r [] (u_tabs q), HPart)
  else if seqb n (lit "values") then Some (negb (is_nilb (u_vals q)), values_str r [] (u_vals q), HPart)
  else if seqb n (lit "where") then Some (negb (is_nilb (u_where q)), conds_str r (lit "WHERE") (u_where q), HPart)
  else None.
Definition upd_has (W : world) (q : updq val) (n : str) (value : val) : res bool :=
  query_has W (upd_part (w_env W) (w_str W) q n) value.
Definition del_part (E : env) (r : val -> res str) (q : delq val) (n : str) : option (bool * res str * hkind) :=
  if seqb n (lit "delete_options") then Some (d_ignore q, Ok (lit "IGNORE"), HOptions)
  else if seqb n (lit "tables") then Some (negb (is_nilb (d_tabs q)), tables_str E r [] (d_tabs q), HPart)
  else if seqb n (lit "references") then Some (negb (is_nilb (d_refs q)), tables_str E r [] (d_refs q), HPart)
  else if seqb n (lit "where") then Some (negb (is_nilb (d_where q)), conds_str r (lit "WHERE") (d_where q), HPart)
  else None.
Definition del_has (W : world) (q : delq val) (n : str) (value : val) : res bool :=
  query_has W (del_part (w_env W) (w_str W) q n) value.
