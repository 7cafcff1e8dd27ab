(** Python [==] between two values, including every __eq__ of the library. *)
From Verif Require Import Base NumFmt Value.
Open Scope N_scope.

(** Numeric equality across bool, int, float and Decimal. *)
Definition as_num (v : val) : option num :=
  match v with
  | VBool b => Some (NFin false (if b then 1 else 0) 1)
  | VInt z => Some (NFin (z <? 0)%Z (Z.abs_N z) 1)
  | VFloat x | VDec x => Some x
  | _ => None
  end.
Definition num_eq (x y : num) : bool :=
  match x, y with
  | NFin s n d, NFin s' n' d' =>
      (n * Npos d' =? n' * Npos d) && ((n =? 0) || Bool.eqb s s')
  | NInf s, NInf s' => Bool.eqb s s'
  | _, _ => false
  end.

Definition date_eqb (a b : date) : bool :=
  (d_year a =? d_year b) && (d_month a =? d_month b) && (d_day a =? d_day b).
Definition time_eqb (a b : time) : bool :=
  (t_hour a =? t_hour b) && (t_min a =? t_min b) && (t_sec a =? t_sec b) && (t_us a =? t_us b).

Definition seqk_eqb (a b : seqk) : bool :=
  match a, b with
  | KList, KList | KTuple, KTuple | KRange, KRange => true
  | _, _ => false
  end.
Definition is_setk (k : seqk) : bool := match k with KSet | KFrozenset => true | _ => false end.

Definition relk_eqb (a b : relk) : bool :=
  match a, b with
  | REq, REq | RNe, RNe | RGt, RGt | RGe, RGe | RLt, RLt | RLe, RLe | RLike, RLike
  | RNotLike, RNotLike | RRegexp, RRegexp | RIn, RIn | RNotIn, RNotIn | RIs, RIs
  | RIsNot, RIsNot => true
  | _, _ => false
  end.
Definition sortd_eqb (a b : sortd) : bool :=
  match a, b with Asc, Asc | Desc, Desc => true | _, _ => false end.
Definition jointy_eqb (a b : jointy) : bool :=
  match a, b with
  | JInner, JInner | JLeft, JLeft | JRight, JRight | JFull, JFull => true | _, _ => false end.
Definition uniont_eqb (a b : uniont) : bool :=
  match a, b with UUnion, UUnion | UAll, UAll => true | _, _ => false end.
Definition condk_eqb (a b : condk) : bool :=
  match a, b with KWhere, KWhere | KOn, KOn => true | _, _ => false end.
Definition cacheopt_eqb (a b : cacheopt) : bool :=
  match a, b with CacheOff, CacheOff | CacheOn, CacheOn | CacheNo, CacheNo => true | _, _ => false end.
Definition dupopt_eqb (a b : dupopt) : bool :=
  match a, b with
  | DupOff, DupOff | DupAll, DupAll | DupDistinct, DupDistinct
  | DupDistinctrow, DupDistinctrow => true | _, _ => false end.
(** Options.__eq__: options.py:23-28. *)
Definition selopts_eqb (a b : selopts) : bool :=
  cacheopt_eqb (so_cache a) (so_cache b) && dupopt_eqb (so_dup a) (so_dup b)
  && Bool.eqb (so_small a) (so_small b) && Bool.eqb (so_big a) (so_big b)
  && Bool.eqb (so_buffer a) (so_buffer b) && Bool.eqb (so_calc a) (so_calc b)
  && Bool.eqb (so_straight a) (so_straight b) && Bool.eqb (so_high a) (so_high b).
Definition optZ_eqb (a b : option Z) : bool :=
  match a, b with Some x, Some y => (x =? y)%Z | None, None => true | _, _ => false end.
(** Limit.__eq__: limit.py:23-28. *)
Definition limits_eqb (a b : limits) : bool :=
  optZ_eqb (l_limit a) (l_limit b) && optZ_eqb (l_offset a) (l_offset b).

(** Relation of the mirrored comparison: tables.py:25-32. *)
Definition revert (r : relk) : option relk :=
  match r with
  | REq => Some REq | RNe => Some RNe | RGt => Some RLt | RGe => Some RLe
  | RLt => Some RGt | RLe => Some RGe | _ => None
  end.

(** Classes whose __eq__ is Object.__eq__ (object.py:15-27), i.e. comparison of
    rendered texts: CustomSql, SqlValue, SqlReference, the functions, Not, Exists
    and ConditionsOfConditions. *)
Definition textual_eq (v : val) : bool :=
  match v with
  | VCustom _ | VSqlV _ | VSqlR _ | VCoC _ _ _ | VNot _ | VExists _ | VAgg _ _ _
  | VConcat _ | VGroupConcat _ _ _ | VConvert _ _ => true
  | _ => false
  end.

(** Two lists of equal length, compared element by element. *)
Definition list_eq {A B} (f : A -> B -> res bool) (l : list A) (m : list B) : res bool :=
  if Nat.eqb (List.length l) (List.length m) then all2 f l m else Ok false.

Definition opt_eq {A B} (f : A -> B -> res bool) (a : option A) (b : option B) : res bool :=
  match a, b with
  | None, None => Ok true
  | Some x, Some y => f x y
  | _, _ => Ok false      (* one side None: str / SQL object == None is False *)
  end.
(** Column.__eq__: columns.py:21-26. *)
Definition pair_eq {A B} (f : A -> B -> res bool) (p : A * A) (q : B * B) : res bool :=
  match p, q with (a, b), (c, d) => rand (f a c) (f b d) end.
(** Order.__eq__: order.py:26-31. *)
Definition ord_eq {A B} (f : A -> B -> res bool) (p : A * sortd) (q : B * sortd) : res bool :=
  match p, q with (a, s), (c, t) => rand (f a c) (Ok (sortd_eqb s t)) end.
(** Equality of two entries of _joins as dicts; Table.__eq__: tables.py:92-98. *)
Definition join_eq {A B} (f : A -> B -> res bool) (p : join A) (q : join B) : res bool :=
  match p, q with MkJoin t n a o, MkJoin t' n' a' o' =>
    rand (Ok (jointy_eqb t t')) (rand (rand (f n n') (f a a')) (list_eq f o o')) end.
Definition table_eq {A B} (f : A -> B -> res bool) (p : table A) (q : table B) : res bool :=
  match p, q with MkTable n a js, MkTable n' a' js' =>
    rand (f n n') (rand (f a a') (list_eq (join_eq f) js js')) end.
(** IntoOutfile.__eq__: intooutfile.py:30-37. *)
Definition out_eq {A B} (f : A -> B -> res bool) (p : outfile A) (q : outfile B) : res bool :=
  match p, q with MkOutfile a b c d, MkOutfile a' b' c' d' =>
    rand (opt_eq f a a') (rand (opt_eq f b b') (rand (opt_eq f c c') (opt_eq f d d'))) end.

(** Query.__eq__: query.py:30-37: the parts in alphabetical order of their keys. *)
Definition sel_eq {A B} (f : A -> B -> res bool) (p : selq A) (q : selq B) : res bool :=
  match p, q with
  | MkSel op c t w g h o l out fu, MkSel op' c' t' w' g' h' o' l' out' fu' =>
      rand (list_eq (pair_eq f) c c') (rand (list_eq (ord_eq f) g g')
        (rand (list_eq f h h') (rand (out_eq f out out') (rand (Ok (limits_eqb l l'))
          (rand (list_eq (ord_eq f) o o') (rand (Ok (Bool.eqb fu fu')) (rand (Ok (selopts_eqb op op'))
            (rand (list_eq (table_eq f) t t') (list_eq f w w')))))))))
  end.
Definition ins_eq {A B} (f : A -> B -> res bool) (p : insq A) (q : insq B) : res bool :=
  match p, q with
  | MkIns rp ig t rows dup _ upd, MkIns rp' ig' t' rows' dup' _ upd' =>
      rand (Ok (Bool.eqb ig ig')) (rand (Ok (Bool.eqb rp rp')) (rand (list_eq f upd upd')
        (rand (list_eq f dup dup') (rand (list_eq (table_eq f) t t')
          (list_eq (list_eq f) rows rows')))))
  end.
Definition upd_eq {A B} (f : A -> B -> res bool) (p : updq A) (q : updq B) : res bool :=
  match p, q with
  | MkUpd ig t v w _, MkUpd ig' t' v' w' _ =>
      rand (list_eq (table_eq f) t t') (rand (Ok (Bool.eqb ig ig'))
        (rand (list_eq f v v') (list_eq f w w')))
  end.
Definition del_eq {A B} (f : A -> B -> res bool) (p : delq A) (q : delq B) : res bool :=
  match p, q with
  | MkDel ig t r w _, MkDel ig' t' r' w' _ =>
      rand (Ok (Bool.eqb ig ig')) (rand (list_eq (table_eq f) r r')
        (rand (list_eq (table_eq f) t t') (list_eq f w w')))
  end.

Definition str_of (v : val) : option str := match v with VStr s => Some s | _ => None end.

(** [pyeq r a b]: a == b; [r v] is str(v).  Data against data: Python's own
    equality (a generator or an opaque object only equals itself; identity of
    objects is otherwise not modelled).  str against a textual object: the
    reflected Object.__eq__, object.py:23-24. *)
Fixpoint pyeq (r : val -> res str) (a b : val) {struct a} : res bool :=
  if textual_eq a then
    (* object.py:23-27 *)
    match b with
    | VStr s => do x <- r a; Ok (seqb x s)
    | _ => if is_sql b then (do x <- r a; do y <- r b; Ok (seqb x y)) else Ok false
    end
  else
    match a with
    | VNone => Ok (is_none b)
    | VBool _ | VInt _ | VFloat _ | VDec _ =>
        match as_num a, as_num b with
        | Some x, Some y => Ok (num_eq x y)
        | _, _ => Ok false
        end
    | VStr s =>
        match b with
        | VStr t => Ok (seqb s t)
        | _ => if textual_eq b then (do y <- r b; Ok (seqb y s)) else Ok false
        end
    | VBytes x => match b with VBytes y => Ok (seqb x y) | _ => Ok false end
    | VDate d => match b with VDate d' => Ok (date_eqb d d') | _ => Ok false end
    | VDatetime d t =>
        match b with VDatetime d' t' => Ok (date_eqb d d' && time_eqb t t') | _ => Ok false end
    | VSeq k l =>
        match b with
        | VSeq k' m =>
            if seqk_eqb k k' then list_eq (pyeq r) l m
            else if is_setk k && is_setk k' then
              if Nat.eqb (List.length l) (List.length m)
              then allM (fun x => anyM (fun y => pyeq r x y) m) l
              else Ok false
            else Ok false
        | _ => Ok false
        end
    | VDict l =>
        match b with
        | VDict m =>
            if Nat.eqb (List.length l) (List.length m)
            then allM (fun p => match p with (k, v) =>
                         anyM (fun q => match q with (k', v') => rand (pyeq r k k') (pyeq r v v') end) m
                       end) l
            else Ok false
        | _ => Ok false
        end
    | VOther i => match b with VOther j => Ok (i =? j) | _ => Ok false end
    | VRel k v =>                                   (* relations.py:40-45 *)
        match b with VRel k' v' => rand (Ok (relk_eqb k k')) (pyeq r v v') | _ => Ok false end
    | VCond KWhere c k v =>                          (* conditions.py:52-58 *)
        match b with
        | VCond KWhere c' k' v' => rand (pyeq r c c') (rand (pyeq r v v') (Ok (relk_eqb k k')))
        | _ => Ok false
        end
    | VCond KOn c k v =>                             (* tables.py:34-53 *)
        match b with
        | VCond KOn c' k' v' =>
            ror (rand (pyeq r c c') (rand (pyeq r v v') (Ok (relk_eqb k k'))))
                (match v with
                 | VStr _ =>
                     rand (pyeq r v c') (rand (pyeq r c v')
                       (Ok (match revert k with Some k2 => relk_eqb k2 k' | None => false end)))
                 | _ => Ok false
                 end)
        | _ => Ok false
        end
    | VValue c v =>                                  (* values.py:20-25 *)
        match b with VValue c' v' => rand (pyeq r c c') (pyeq r v v') | _ => Ok false end
    | VConds ps =>                                   (* queryparts.py:59-62 *)
        match b with VConds qs => list_eq (pyeq r) ps qs | _ => Ok false end
    | VSelect p => match b with VSelect q => sel_eq (pyeq r) p q | _ => Ok false end
    | VUnion t x y =>                                (* union.py:40-46 *)
        match b with
        | VUnion t' x' y' => rand (pyeq r x x') (rand (pyeq r y y') (Ok (uniont_eqb t t')))
        | _ => Ok false
        end
    | VInsert p => match b with VInsert q => ins_eq (pyeq r) p q | _ => Ok false end
    | VUpdate p => match b with VUpdate q => upd_eq (pyeq r) p q | _ => Ok false end
    | VDelete p => match b with VDelete q => del_eq (pyeq r) p q | _ => Ok false end
    | _ => Ok false
    end.
