(** Properties C12-C16: relations and the boolean structure of conditions.
    [conds_where W KWhere [] args kwds] is where(args, kwds) on a query without
    conditions: the conditions it leaves and its outcome.  Specifications:
    SpecLogic.v, SpecRelations.v, SpecConds.v. *)
From Verif Require Import Base NumFmt Value Eq Render ParseArgs Build SpecLogic SpecConds SpecRelations
  BoolFacts PfRelations PfBool Demo.
Open Scope N_scope.

(** C12.  [X] are the non-NULL database values, [m] the cell a literal denotes. *)
Theorem C12_in_with_none : forall (X : Type) (eqX : X -> X -> bool), (forall x y, eqX x y = true <-> x = y) ->
  forall E (m : str -> option X) c sk l lt,
  l <> [] -> (forall v, In v l -> v <> VNone -> text E (VSqlV v) = Ok (lt v)) ->
  exists rel cnd col form,
    mk_in RIn [VSeq sk l] = Ok rel /\
    conds_where (pure_world E) KWhere [] [VStr c; rel] [] = ([cnd], Ok tt) /\
    text E (VSqlR (VStr c)) = Ok col /\
    text E cnd = Ok (written col form) /\
    forall cell, selects (truth1 eqX m cell form) <-> exists v, In v l /\ matches lt m v cell.
Proof. exact where_in. Qed.
Print Assumptions C12_in_with_none.
Theorem C12_plain_sequence_is_in : forall E c sk l, In sk [KList; KTuple; KRange; KGen] ->
  exists rel, mk_in RIn [VSeq sk l] = Ok rel /\
  conds_where (pure_world E) KWhere [] [VStr c; VSeq sk l] [] = conds_where (pure_world E) KWhere [] [VStr c; rel] [].
Proof. exact where_seq_is_in. Qed.
Print Assumptions C12_plain_sequence_is_in.
Theorem C12_empty_rejected : forall E k c sk, k = RIn \/ k = RNotIn -> exists rel cnd,
  mk_in k [VSeq sk []] = Ok rel /\
  conds_where (pure_world E) KWhere [] [VStr c; rel] [] = ([cnd], Ok tt) /\
  text E cnd = Err EInvalidArgument.
Proof. exact where_in_empty. Qed.
Print Assumptions C12_empty_rejected.
Example C12_example :
  text (demo BSql) (VCond KWhere (vs "c") RIn (VSeq KList [VNone; VInt 1; vs "x"])) = Ok (lit "(""c"" IN (1, 'x') OR ""c"" IS NULL)")
  /\ text (demo BSql) (VCond KWhere (vs "c") RIn (VSeq KList [VNone; VNone])) = Ok (lit """c"" IS NULL").
Proof. split; vm_compute; reflexivity. Qed.
(** A list wrapped in V(...) is not treated: the NULL rows are lost. *)
Theorem C12_wrapped_list_refuted : exists E l cnd,
  conds_where (pure_world E) KWhere [] [vs "c"; VSqlV (VSeq KList l)] [] = ([cnd], Ok tt) /\
  In VNone l /\ text E cnd = Ok (written (lit """c""") (CIn [lit "1"; lit "NULL"])) /\
  forall (m : str -> option N), m (lit "NULL") = None ->
    ~ selects (truth1 N.eqb m None (CIn [lit "1"; lit "NULL"])).
Proof.
  exists (demo BSql), [VInt 1; VNone]. eexists. split; [vm_compute; reflexivity|].
  split; [right; now left|]. split; [vm_compute; reflexivity|]. intros m H. unfold selects. simpl. discriminate.
Qed.
Print Assumptions C12_wrapped_list_refuted.

(** C13 *)
Theorem C13_not_in_with_none : forall (X : Type) (eqX : X -> X -> bool), (forall x y, eqX x y = true <-> x = y) ->
  forall E (m : str -> option X) c sk l lt,
  l <> [] -> (forall v, In v l -> v <> VNone -> text E (VSqlV v) = Ok (lt v) /\ m (lt v) <> None) ->
  exists rel cnd col form,
    mk_in RNotIn [VSeq sk l] = Ok rel /\
    conds_where (pure_world E) KWhere [] [VStr c; rel] [] = ([cnd], Ok tt) /\
    text E (VSqlR (VStr c)) = Ok col /\
    text E cnd = Ok (written col form) /\
    forall cell, selects (truth1 eqX m cell form) <->
      cell <> None /\ ~ exists v, In v l /\ matches lt m v cell.
Proof. exact where_not_in. Qed.
Print Assumptions C13_not_in_with_none.
Example C13_example :
  text (demo BSql) (VCond KWhere (vs "c") RNotIn (VSeq KList [VInt 1; VNone])) = Ok (lit "(""c"" NOT IN (1) AND ""c"" IS NOT NULL)").
Proof. vm_compute. reflexivity. Qed.

(** C14 *)
Theorem C14_none_is_null : forall E c, exists cnd col,
  conds_where (pure_world E) KWhere [] [VStr c; VNone] [] = ([cnd], Ok tt) /\
  text E (VSqlR (VStr c)) = Ok col /\ text E cnd = Ok (col ++ lit " IS NULL").
Proof. exact where_none. Qed.
Print Assumptions C14_none_is_null.
Theorem C14_scalar_equals : forall E c v, is_text v \/ is_number v \/ is_boolean v \/ is_temporal v ->
  exists cnd col tv,
  conds_where (pure_world E) KWhere [] [VStr c; v] [] = ([cnd], Ok tt) /\
  text E (VSqlR (VStr c)) = Ok col /\ text E (VSqlV v) = Ok tv /\
  text E cnd = Ok (col ++ lit " = " ++ tv).
Proof. exact where_scalar. Qed.
Print Assumptions C14_scalar_equals.
(** V(v) instead of v makes no difference, for None neither. *)
Theorem C14_wrapped : forall E c v, v = VNone \/ is_text v \/ is_number v \/ is_boolean v \/ is_temporal v ->
  exists cnd wrapped t, conds_where (pure_world E) KWhere [] [VStr c; v] [] = ([cnd], Ok tt) /\
  conds_where (pure_world E) KWhere [] [VStr c; VSqlV v] [] = ([wrapped], Ok tt) /\ text E cnd = Ok t /\ text E wrapped = Ok t.
Proof. exact where_wrapped. Qed.
Print Assumptions C14_wrapped.
Theorem C14_others_rejected : forall E c v, ~ is_sql_object v ->
  v <> VNone -> ~ (is_text v \/ is_number v \/ is_boolean v \/ is_temporal v) ->
  ~ (exists sk l, In sk [KList; KTuple; KRange; KGen] /\ v = VSeq sk l) ->
  conds_where (pure_world E) KWhere [] [VStr c; v] [] = ([], Err EInvalidArgument).
Proof. exact where_other_rejected. Qed.
Print Assumptions C14_others_rejected.
Example C14_example :
  text (demo BSql) (VCond KWhere (vs "c") RIs VNone) = Ok (lit """c"" IS NULL") /\
  mk_condition KWhere (vs "c") (VSeq KSet [VInt 1]) = Err EInvalidArgument /\
  mk_rel REq VNone = Err EInvalidArgument.
Proof. repeat split; vm_compute; reflexivity. Qed.

(** C15 *)
Theorem C15_relation_types : forall k v,
  (documented k v \/ is_sql_object v -> exists w, mk_in k [v] = Ok (VRel k w)) /\
  (~ (documented k v \/ is_sql_object v) -> mk_in k [v] = Err EInvalidArgument).
Proof. exact relation_types. Qed.
Print Assumptions C15_relation_types.
Example C15_example : mk_in RGt [VBool true] = Err EInvalidArgument /\ mk_in REq [VBool true] = Ok (VRel REq (VBool true))
  /\ mk_in RLike [VInt 1] = Err EInvalidArgument.
Proof. repeat split. Qed.

(** C16 *)
Theorem C16_boolean_structure_partial : forall E x t, cond_tree x -> text E x = Ok t ->
  exists (l : list (item val)) (w : val -> str),
    t = items_text w l /\ (forall a, In (IAtom a) l -> text E a = Ok (w a)) /\
    (exists e, p_search l e) /\
    (forall e v, p_search l e -> bval v e = meaning v x).
Proof. exact boolean_structure. Qed.
Print Assumptions C16_boolean_structure_partial.
Example C16_example : exists x, cond_tree x /\
  text (demo BSql) x = Ok (lit "((""a"" = 1 AND ""b"" = 2) OR (NOT(""c"" = 3) AND ""d"" = 4))").
Proof.
  exists (VCoC OpOr (VConds [VCond KWhere (vs "a") REq (VInt 1); VCond KWhere (vs "b") REq (VInt 2)])
             (VCoC OpAnd (VConds [VNot [VCond KWhere (vs "c") REq (VInt 3)]]) (VCond KWhere (vs "d") REq (VInt 4)))).
  split; [|vm_compute; reflexivity]. repeat (constructor; try discriminate).
Qed.
(** An empty Q() leaves a hole: the text of Q() | Q(a=1) is not a search condition. *)
Theorem C16_empty_q_refuted : exists E e y x, mk_Q (pure_world E) [] [] = Ok e /\
  mk_Q (pure_world E) [] [(lit "a", VInt 1)] = Ok y /\ py_binop OpOr e y = Ok x /\
  exists w : unit -> str, text E x = Ok (items_text w [ILp; IOr; IAtom tt; IRp]) /\
  ~ exists b, p_search [ILp; IOr; IAtom tt; IRp] b.
Proof.
  exists (demo BSql). do 3 eexists. split; [reflexivity|]. split; [vm_compute; reflexivity|].
  split; [reflexivity|]. exists (fun _ => lit """a"" = 1"). split; [vm_compute; reflexivity|].
  intros [b H]. apply (proj2 (proj2 (proj2 auto_parse))) in H. discriminate H.
Qed.
Print Assumptions C16_empty_q_refuted.
