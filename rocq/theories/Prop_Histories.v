(** Properties about histories of calls (C17, C25-C30).  A history is a list of
    calls, each made in its own world; exceptions are caught by the caller and the
    following calls are made on whatever state is left (History.v).  What a history
    asks for is read off the calls alone (SpecHistory.v). *)
From Coq Require Import Sorted.
From Verif Require Import Base NumFmt Value Eq Render ParseArgs Build Queries History SpecRead SpecRef SpecHistory
  SpecOptions SpecVacuous PfHistories PfOptions PfVacuous Demo.
Open Scope N_scope.

(** C17.  Whatever calls follow, the conditions already there stay, in order. *)
Theorem C17_where_accumulates_select : forall H q,
  prefix (s_where q) (s_where (calls sel_step q H)) /\ prefix (s_having q) (s_having (calls sel_step q H)).
Proof. exact sel_conditions_prefix. Qed.
Print Assumptions C17_where_accumulates_select.
Theorem C17_where_accumulates_update : forall H q, prefix (u_where q) (u_where (calls upd_step q H)).
Proof. exact upd_where_prefix. Qed.
Print Assumptions C17_where_accumulates_update.
Theorem C17_where_accumulates_delete : forall H q, prefix (d_where q) (d_where (calls del_step q H)).
Proof. exact del_where_prefix. Qed.
Print Assumptions C17_where_accumulates_delete.
(** A failing call: the pair before the bad one is added, the earlier conditions stay. *)
Example C17_example :
  s_where (calls sel_step empty_select
    [(demoW BSql, SWhere [vs "a"; VInt 1] []);
     (demoW BSql, SWhere [VSeq KTuple [vs "b"; VInt 2]; VSeq KTuple [VInt 3; VInt 4]] [])])
  = [VCond KWhere (vs "a") REq (VInt 1); VCond KWhere (vs "b") REq (VInt 2)].
Proof. reflexivity. Qed.

(** C25.  Only limit() and offset() are called; the clause is determined by the calls. *)
Theorem C25_limit_offset : forall E H, Forall limit_op (map snd H) ->
  exists clause, limit_text (wanted_limit (map snd H)) (wanted_offset (map snd H)) clause /\
    text E (VSelect (calls sel_step empty_select H)) = Ok (lit "SELECT *" ++ clause).
Proof. exact limit_clause. Qed.
Print Assumptions C25_limit_offset.
(** Among any other calls: they do not touch what limit() and offset() stored. *)
Theorem C25_limit_any_history : forall H, s_limit (calls sel_step empty_select H) =
  MkLimits (wanted_limit (map snd H)) (wanted_offset (map snd H)).
Proof. exact limit_state. Qed.
Print Assumptions C25_limit_any_history.
Theorem C25_limit_accepts : forall W q l o, snd (sel_step W q (SLimit l o)) = Ok tt <-> limit_accepts l o.
Proof. exact limit_rejects. Qed.
Print Assumptions C25_limit_accepts.
Theorem C25_offset_accepts : forall W q o, snd (sel_step W q (SOffset o)) = Ok tt <-> limit_arg o.
Proof. exact offset_rejects. Qed.
Print Assumptions C25_offset_accepts.
Theorem C25_rejected_first_argument : forall W q op, limit_op op ->
  (match op with SLimit l _ => ~ limit_arg l | SOffset o => ~ limit_arg o | _ => False end) ->
  fst (sel_step W q op) = q.
Proof. exact limit_unchanged. Qed.
Print Assumptions C25_rejected_first_argument.
(** But limit(5, True) raises and nevertheless sets the limit. *)
Theorem C25_rejected_changes_refuted : exists W q l o,
  snd (sel_step W q (SLimit l o)) = Err EInvalidArgument /\ fst (sel_step W q (SLimit l o)) <> q.
Proof. exists (demoW BSql), empty_select, (VInt 5), (VBool true). split; [reflexivity|discriminate]. Qed.
Print Assumptions C25_rejected_changes_refuted.
Example C25_example : text (demo BSql) (VSelect (calls sel_step empty_select
    [(demoW BSql, SLimit (VInt 10) (VInt 20)); (demoW BSql, SOffset (VStr (lit "x"))); (demoW BSql, SLimit (VInt 7) VNone)]))
  = Ok (lit "SELECT * LIMIT 7 OFFSET 20").
Proof. vm_compute. reflexivity. Qed.

(** C26 *)
Theorem C26_select_options : forall E H, Forall option_op (map snd H) ->
  text E (VSelect (calls sel_step empty_select H)) =
    Ok (sjoin (lit " ") ([lit "SELECT"] ++ map option_name (filter (option_on (map snd H)) alphabetical) ++ [lit "*"])).
Proof. exact option_clause. Qed.
Print Assumptions C26_select_options.
(** C26.  Among any other calls: the text of the query without its option calls, with the names after SELECT. *)
Theorem C26_any_history : forall E H, let q := VSelect (calls sel_step empty_select H) in
  let q0 := VSelect (calls sel_step empty_select (filter (fun c => no_option (snd c)) H)) in
  (exists r, text E q0 = Ok (lit "SELECT" ++ r) /\
             text E q = Ok (lit "SELECT" ++ words (filter (option_on (map snd H)) alphabetical) ++ r)) \/
  (exists e, text E q0 = Err e /\ text E q = Err e).
Proof. exact options_among. Qed.
Print Assumptions C26_any_history.
Theorem C26_exclusive : forall ops k k', option_on ops k = true -> option_on ops k' = true ->
  group_of k = group_of k' -> k = k'.
Proof. exact option_exclusive. Qed.
Print Assumptions C26_exclusive.
Theorem C26_alphabetical : StronglySorted (fun a b => sltb a b = true) (map option_name alphabetical) /\
  forall k, In k alphabetical.
Proof. exact alphabetical_ok. Qed.
Print Assumptions C26_alphabetical.
Example C26_example : text (demo BSql) (VSelect (calls sel_step empty_select
    [(demoW BSql, SOpt OSqlCache (VBool true)); (demoW BSql, SOpt ODistinct (VBool true)); (demoW BSql, SOpt OSqlNoCache (VInt 1))]))
  = Ok (lit "SELECT DISTINCT SQL_NO_CACHE *").
Proof. vm_compute. reflexivity. Qed.

(** C27.  False: all(False) also switches DISTINCT off. *)
Theorem C27_off_affects_others_refuted : exists ops k k' v, truthy v = false /\ k <> k' /\
  option_on ops k' = true /\ forall E, text E (VSelect (calls sel_step empty_select
    (map (pair (pure_world E)) (ops ++ [SOpt k v])))) = Ok (lit "SELECT *").
Proof.
  exists [SOpt ODistinct (VBool true)], OAll, ODistinct, (VBool false). repeat split; try discriminate.
Qed.
Print Assumptions C27_off_affects_others_refuted.
(** What switching off does, after any calls: the options of that group disappear from the text,
    and nothing else changes. *)
Theorem C27_off_exactly : forall E H W k v, truthy v = false ->
  let q := VSelect (calls sel_step empty_select H) in let q' := VSelect (calls sel_step empty_select (H ++ [(W, SOpt k v)])) in
  let on := option_on (map snd H) in
  (exists r, text E q = Ok (lit "SELECT" ++ words (filter on alphabetical) ++ r) /\
             text E q' = Ok (lit "SELECT" ++ words (filter (fun k' => on k' && negb (optgroup_eqb (group_of k) (group_of k'))) alphabetical) ++ r)) \/
  (exists e, text E q = Err e /\ text E q' = Err e).
Proof. exact off_exactly. Qed.
Print Assumptions C27_off_exactly.
Example C27_example :
  let H := [(demoW BSql, SFrom [vs "t"] []); (demoW BSql, SOpt ODistinct (VBool true)); (demoW BSql, SOpt OHigh (VBool true)); (demoW BSql, SWhere [] [(lit "a", VInt 1)])] in
  text (demo BSql) (VSelect (calls sel_step empty_select H)) = Ok (lit "SELECT DISTINCT HIGH_PRIORITY * FROM ""t"" WHERE ""a"" = 1") /\
  text (demo BSql) (VSelect (calls sel_step empty_select (H ++ [(demoW BSql, SOpt OAll (VBool false))]))) = Ok (lit "SELECT HIGH_PRIORITY * FROM ""t"" WHERE ""a"" = 1").
Proof. split; vm_compute; reflexivity. Qed.

(** C28 *)
Theorem C28_delete_needs_confirmation : forall E H, let q := calls del_step empty_delete H in
  (forall t, text E (VDelete q) = Ok t ->
     delete_confirmed (map snd H) \/
     (d_where q <> [] /\ exists W a k, In (W, DWhere a k) H /\ (a <> [] \/ k <> []))) /\
  (d_where q = [] -> ~ delete_confirmed (map snd H) -> text E (VDelete q) = Err EConfirmDelete) /\
  (d_where q <> [] -> forall t, text E (VDelete q) = Ok t ->
     exists pre c rest ws, text E (VConds (d_where q)) = Ok c /\ t = pre ++ lit " WHERE" ++ rest /\
       lit " " ++ c = rest ++ ws /\ Forall whitespace ws).
Proof. exact delete_guard. Qed.
Print Assumptions C28_delete_needs_confirmation.
Example C28_example :
  text (demo BSql) (VDelete (calls del_step empty_delete
    [(demoW BSql, DFrom [vs "t"] []); (demoW BSql, DAllow); (demoW BSql, DForbid)])) = Err EConfirmDelete /\
  text (demo BSql) (VDelete (calls del_step empty_delete
    [(demoW BSql, DAllow); (demoW BSql, DFrom [vs "t"] [])])) = Ok (lit "DELETE FROM ""t""") /\
  text (demo BSql) (VDelete (calls del_step empty_delete
    [(demoW BSql, DFrom [vs "t"] []); (demoW BSql, DWhere [] [(lit "id", VInt 1)])])) = Ok (lit "DELETE FROM ""t"" WHERE ""id"" = 1").
Proof. repeat split; vm_compute; reflexivity. Qed.

(** C29 *)
Theorem C29_update_needs_confirmation : forall E H, let q := calls upd_step empty_update H in
  (forall t, text E (VUpdate q) = Ok t ->
     update_confirmed (map snd H) \/
     (u_where q <> [] /\ exists W a k, In (W, UWhere a k) H /\ (a <> [] \/ k <> []))) /\
  (u_where q = [] -> ~ update_confirmed (map snd H) -> text E (VUpdate q) = Err EConfirmUpdate) /\
  (u_where q <> [] -> forall t, text E (VUpdate q) = Ok t ->
     exists pre c rest ws, text E (VConds (u_where q)) = Ok c /\ t = pre ++ lit " WHERE" ++ rest /\
       lit " " ++ c = rest ++ ws /\ Forall whitespace ws).
Proof. exact update_guard. Qed.
Print Assumptions C29_update_needs_confirmation.
Example C29_example :
  text (demo BSql) (VUpdate (calls upd_step empty_update
    [(demoW BSql, UTable (vs "t")); (demoW BSql, USet [] [(lit "a", VInt 1)])])) = Err EConfirmUpdate /\
  text (demo BSql) (VUpdate (calls upd_step empty_update
    [(demoW BSql, UTable (vs "t")); (demoW BSql, USet [] [(lit "a", VInt 1)]); (demoW BSql, UWhere [vs "b"; VNone] [])]))
  = Ok (lit "UPDATE ""t"" SET ""a"" = 1 WHERE ""b"" IS NULL").
Proof. repeat split; vm_compute; reflexivity. Qed.

(** C30.  False: an empty Q counts as a condition, and the whole table goes. *)
Theorem C30_vacuous_condition_refuted : exists q, mk_Q (demoW BSql) [] [] = Ok q /\
  text (demo BSql) (VDelete (calls del_step empty_delete
    [(demoW BSql, DFrom [vs "t"] []); (demoW BSql, DWhere [q] [])])) = Ok (lit "DELETE FROM ""t"" WHERE").
Proof. exists (VConds []). split; vm_compute; reflexivity. Qed.
Print Assumptions C30_vacuous_condition_refuted.
(** Which where() calls add no condition: exactly those that ask for nothing. *)
Theorem C30_no_condition : forall W k args kwds,
  conds_where W k [] args kwds = ([], Ok tt) <-> asks_nothing args kwds.
Proof. exact no_condition. Qed.
Print Assumptions C30_no_condition.
Theorem C30_no_condition_later : forall W k ps args,
  In args [[]; [VDict []]; [VSeq KList []]; [VSeq KTuple []]] ->
  conds_where W k ps args [] = (ps, Ok tt).
Proof. exact vacuous_where. Qed.
Print Assumptions C30_no_condition_later.
(** Which conditions bypass the confirmation: an unconfirmed query that renders has a
    blank WHERE exactly when its only condition is a [blank] SQL object, which was then
    an argument of where(). *)
Theorem C30_delete_exactly : forall E H t, let q := calls del_step empty_delete H in
  (forall W a k y, In (W, DWhere a k) H -> In y a -> holds_objects y) ->
  ~ delete_confirmed (map snd H) -> text E (VDelete q) = Ok t ->
  exists pre c rest ws, text E (VConds (d_where q)) = Ok c /\ t = pre ++ lit " WHERE" ++ rest /\
    lit " " ++ c = rest ++ ws /\ Forall whitespace ws /\
    (Forall whitespace c <-> exists x, d_where q = [x] /\ blank x) /\
    (Forall whitespace c -> exists W a k x, In (W, DWhere a k) H /\ In x a /\ blank x).
Proof. exact delete_blank. Qed.
Print Assumptions C30_delete_exactly.
Theorem C30_update_exactly : forall E H t, let q := calls upd_step empty_update H in
  (forall W a k y, In (W, UWhere a k) H -> In y a -> holds_objects y) ->
  ~ update_confirmed (map snd H) -> text E (VUpdate q) = Ok t ->
  exists pre c rest ws, text E (VConds (u_where q)) = Ok c /\ t = pre ++ lit " WHERE" ++ rest /\
    lit " " ++ c = rest ++ ws /\ Forall whitespace ws /\
    (Forall whitespace c <-> exists x, u_where q = [x] /\ blank x) /\
    (Forall whitespace c -> exists W a k x, In (W, UWhere a k) H /\ In x a /\ blank x).
Proof. exact update_blank. Qed.
Print Assumptions C30_update_exactly.
(** The hypothesis on arguments holds for data and for whatever Q() makes. *)
Theorem C30_q_objects : forall W args kwds x, mk_Q W args kwds = Ok x -> (forall y, In y args -> holds_objects y) -> holds_objects x.
Proof. exact q_holds. Qed.
Print Assumptions C30_q_objects.
Example C30_example :
  let H x := [(demoW BSql, DFrom [vs "t"] []); (demoW BSql, DWhere [x] [])] in
  ~ delete_confirmed (map snd (H (VSqlR (vs ".")))) /\ holds_objects (VSqlR (vs ".")) /\
  text (demo BSql) (VDelete (calls del_step empty_delete (H (VSqlR (vs "."))))) = Ok (lit "DELETE FROM ""t"" WHERE") /\
  text (demo BSql) (VDelete (calls del_step empty_delete (H (VConds [VSqlV (VCustom (lit " "))])))) = Ok (lit "DELETE FROM ""t"" WHERE") /\
  text (demo BSql) (VDelete (calls del_step empty_delete (H (VCustom (lit "a > 1"))))) = Ok (lit "DELETE FROM ""t"" WHERE a > 1") /\
  asks_nothing [VDict []] [(lit "a", VInt 1)].
Proof.
  split; [|split; [|split; [|split; [|split]]]]; try (vm_compute; reflexivity).
  - intros C. vm_compute in C. discriminate C.
  - repeat constructor.
  - right. right. right. reflexivity.
Qed.
