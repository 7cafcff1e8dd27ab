(** Arguments that are accepted, and the order in which they are kept: C65, C66.
    Specification: SpecAccept.v, SpecArgs.v. *)
From Verif Require Import Base NumFmt Value Backend Eq Render ParseArgs Build Queries History Demo
  SpecArgs SpecRelations SpecErrors SpecAccept PfArgs PfErrors PfAccept.
Open Scope N_scope.

(** C65.  The calls with items, on any query in any world. *)
Theorem C65_select_arguments : forall W q op, with_items op -> unsorted op -> ready_sel q op ->
  judged_call W (sel_items op) (item_sel op) (snd (sel_step W q op)).
Proof. exact select_judged. Qed.
Print Assumptions C65_select_arguments.
Theorem C65_update_arguments : forall W q op, with_items_upd op -> ready_upd q op ->
  judged_call W (upd_items op) (item_upd op) (snd (upd_step W q op)).
Proof. exact update_judged. Qed.
Print Assumptions C65_update_arguments.
Theorem C65_delete_arguments : forall W q op, with_items_del op -> ready_del q op ->
  judged_call W (del_items op) (item_del op) (snd (del_step W q op)).
Proof. exact delete_judged. Qed.
Print Assumptions C65_delete_arguments.
Theorem C65_insert_arguments : forall W q a k, keys_ok a k -> some_data a ->
  judged_call W (pair_args a k) value_item (snd (ins_step W q (IValues a k))) /\
  (e_be (w_env W) = BMySql -> judged_call W (pair_args a k) value_item (snd (ins_step W q (IOnDup a k)))).
Proof. exact (fun W q a k K D => conj (insert_judged W q a k K D) (fun B => duplicate_judged W q a k B K D)). Qed.
Print Assumptions C65_insert_arguments.
(** insert_into(t), update(t).  The argument is dropped if it is empty, zero, None or False. *)
Theorem C65_table_arguments : forall W t, keys_ok (filter truthy [t]) [] ->
  (forall q, judged_call W (alias_args (filter truthy [t]) []) table_item (snd (ins_step W q (IInto t)))) /\
  (forall q, judged_call W (alias_args (filter truthy [t]) []) table_item (snd (upd_step W q (UTable t)))).
Proof. exact named_table. Qed.
Print Assumptions C65_table_arguments.
(** order_by and group_by.  A direction that is a number or an SQL object raises AttributeError. *)
Theorem C65_sort_arguments : forall W q a k, keys_ok a k -> forall op, op = SOrderBy a k \/ op = SGroupBy a k ->
  (forall ps, alias_args a k ps -> sort_judged W ps (snd (sel_step W q op))) /\
  ((forall ps, ~ alias_args a k ps) -> snd (sel_step W q op) = Err EInvalidArgument).
Proof. intros W q a k K op [-> | ->]; [exact (sorts_judged W (s_order q) a k K)|exact (sorts_judged W (s_group q) a k K)]. Qed.
Print Assumptions C65_sort_arguments.

(** A number is no column of a condition, but it is one of columns(). *)
Example C65_example :
  (with_items (SWhere [] [(lit "a", VInt 1); (lit "b", VSeq KSet [])]) /\
   pair_args [] [(lit "a", VInt 1); (lit "b", VSeq KSet [])] [(vs "a", VInt 1); (vs "b", VSeq KSet [])]) /\
  snd (sel_step (demoW BSql) empty_select (SWhere [] [(lit "a", VInt 1); (lit "b", VSeq KSet [])])) = Err EInvalidArgument /\
  snd (sel_step (demoW BSql) empty_select (SWhere [VInt 1; VInt 2] [])) = Err EInvalidArgument /\
  snd (sel_step (demoW BSql) empty_select (SColumns [VInt 1] [])) = Ok tt /\
  snd (upd_step (demoW BSql) empty_update (USet [vs "a"; VSeq KList []] [])) = Err EInvalidArgument /\
  snd (sel_step (demoW BSql) empty_select (SOrderBy [VSeq KTuple [vs "a"; vs "descending"]] [])) = Err EInvalidArgument.
Proof.
  split; [split|].
  - split; [|now left]. split; [|intros i H; discriminate H]. repeat constructor; cbn; intuition discriminate.
  - apply (pa_items [] [] _ [(vs "a", VInt 1); (vs "b", VSeq KSet [])]); [discriminate|intros a b H; discriminate H|constructor|].
    split; [reflexivity|]. repeat constructor.
  - repeat split; vm_compute; reflexivity.
Qed.

(** C66.  Whatever the outcome of the call: nothing that was there moves, and what is new
    follows in the order of the arguments. *)
Theorem C66_select_order : forall W q a k,
  (forall ps, keys_ok a k -> some_data a -> pair_args a k ps ->
     appended condition_for ps (s_where q) (s_where (fst (sel_step W q (SWhere a k)))) /\
     appended condition_for ps (s_having q) (s_having (fst (sel_step W q (SHaving a k))))) /\
  (forall ps, keys_ok a k -> alias_args a k ps -> appended eq ps (s_cols q) (s_cols (fst (sel_step W q (SColumns a k))))) /\
  (forall ps, keys_ok (filter truthy a) k -> alias_args (filter truthy a) k ps ->
     appended table_for ps (s_tabs q) (s_tabs (fst (sel_step W q (SFrom a k))))) /\
  (exists new, map fst (s_order (fst (sel_step W q (SOrderBy a k)))) = map fst (s_order q) ++ new) /\
  (exists new, map fst (s_group (fst (sel_step W q (SGroupBy a k)))) = map fst (s_group q) ++ new).
Proof.
  intros W q a k. split; [|split; [|split; [|split]]].
  - intros ps K D P. exact (conj (where_appends W KWhere _ a k ps K D P) (where_appends W KWhere _ a k ps K D P)).
  - intros ps. exact (columns_appends W (s_cols q) a k ps).
  - intros ps. exact (tables_appends W (s_tabs q) a k ps).
  - exact (orders_names W (s_order q) a k).
  - exact (orders_names W (s_group q) a k).
Qed.
Print Assumptions C66_select_order.
Theorem C66_update_order : forall W q a k ps, keys_ok a k -> some_data a -> pair_args a k ps ->
  appended value_for ps (u_vals q) (u_vals (fst (upd_step W q (USet a k)))) /\
  appended condition_for ps (u_where q) (u_where (fst (upd_step W q (UWhere a k)))).
Proof. intros W [ig ts vs wh al] a k ps K D P. exact (conj (set_appends W vs a k ps K D P) (where_appends W KWhere wh a k ps K D P)). Qed.
Print Assumptions C66_update_order.
Theorem C66_delete_order : forall W q a k,
  (forall ps, keys_ok a k -> some_data a -> pair_args a k ps ->
     appended condition_for ps (d_where q) (d_where (fst (del_step W q (DWhere a k))))) /\
  (forall ps, keys_ok (filter truthy a) k -> alias_args (filter truthy a) k ps ->
     appended table_for ps (d_refs q) (d_refs (fst (del_step W q (DFrom a k))))).
Proof.
  intros W [ig ts rs wh al] a k. split; intros ps; [exact (where_appends W KWhere wh a k ps)|exact (tables_appends W rs a k ps)].
Qed.
Print Assumptions C66_delete_order.
(** The only argument is an SQL object: it is added as it is, at the end. *)
Theorem C66_objects_last : forall W x, is_sql_object x ->
  (forall q, sel_step W q (SWhere [x] []) = (with_where q (s_where q ++ [x]), Ok tt)) /\
  (forall q, sel_step W q (SHaving [x] []) = (with_having q (s_having q ++ [x]), Ok tt)) /\
  (forall q, u_where (fst (upd_step W q (UWhere [x] []))) = u_where q ++ [x]) /\
  (forall q, u_vals (fst (upd_step W q (USet [x] []))) = u_vals q ++ [x]) /\
  (forall q, d_where (fst (del_step W q (DWhere [x] []))) = d_where q ++ [x]) /\
  (forall q, i_rows (fst (ins_step W q (IValues [x] []))) = i_rows q ++ [[x]]).
Proof.
  intros W x X. assert (A : forall c s, conds_where W c s [x] [] = (s ++ [x], Ok tt)) by (intros c s; exact (proj1 (object_last W c s x X))).
  assert (B : forall s, values_set W s [x] [] = (s ++ [x], Ok tt)) by (intros s; exact (proj2 (object_last W KWhere s x X))).
  repeat split; intros q; try destruct q; cbn [sel_step upd_step del_step ins_step]; unfold lift1, rows_add; rewrite ?A, ?B; reflexivity.
Qed.
Print Assumptions C66_objects_last.
Example C66_example :
  text (demo BSql) (VUpdate (calls upd_step empty_update
    [(demoW BSql, UTable (vs "t")); (demoW BSql, USet [] [(lit "b", VInt 1)]); (demoW BSql, USet [VCustom (lit "c = c + 1")] []);
     (demoW BSql, USet [vs "a"; VInt 2] []); (demoW BSql, USet [vs "b"; VInt 1] []); (demoW BSql, UWhere [VCustom (lit "x > y")] [])]))
  = Ok (lit "UPDATE ""t"" SET ""b"" = 1, c = c + 1, ""a"" = 2 WHERE x > y") /\
  appended value_for [(vs "a", VInt 2)] [VValue (vs "b") (VInt 1)] [VValue (vs "b") (VInt 1); VValue (vs "a") (VInt 2)].
Proof.
  split; [vm_compute; reflexivity|]. exists [(vs "a", VInt 2)], [VValue (vs "a") (VInt 2)].
  split; [apply picked_take, picked_nil|]. split; [repeat constructor|reflexivity].
Qed.
