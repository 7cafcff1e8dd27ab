(** Programs whose conditions are made with Q(...), Not(...), & and |: C71.
    Specification: SpecProgramQ.v, SpecProgram.v, SpecArgs.v, SpecSql.v. *)
From Coq Require Import Lia Permutation Sorted.
From Verif Require Import Base NumFmt Value Backend Eq Render ParseArgs Build Queries History Demo
  SpecLex SpecRef SpecLogic SpecHistory SpecArgs SpecErrors SpecWhole SpecSql SpecServer SpecProgram SpecProgramQ PfProgramQ Prop_Server Prop_Program.
Open Scope N_scope.

(** C71.  Such expressions do not raise. *)
Theorem C71_evaluates : forall E b e, sensible b e -> exists x, evaluate (pure_world (with_be E b)) e = Ok x.
Proof. exact expression_evaluates. Qed.
Print Assumptions C71_evaluates.

(** C71.  delete_from(t) with such conditions in where. *)
Theorem C71_delete : forall E b sv db t H given, good_name (quote_of b) t ->
  Forall2 (delete_call (where_asks E b)) H given ->
  List.concat given <> [] \/ delete_confirmed H ->
  let h := program E (map (pair b) (DFrom [VStr t] [] :: H)) in
  let q := calls del_step empty_delete h in
  all_succeed del_step empty_delete h /\
  exists s st db', text (with_be E b) (VDelete q) = Ok s /\ understood (dialect_of b) s = Some st /\ execute sv st db = Some db' /\
    db' (name_segments t) = filter (fun r => negb (matches_items b sv (List.concat given) r)) (db (name_segments t)) /\
    (forall p, p <> name_segments t -> db' p = db p).
Proof. exact delete_objects. Qed.
Print Assumptions C71_delete.

(** C71.  update(t).set(...) with such conditions in where. *)
Theorem C71_update : forall E b sv db t H given, good_name (quote_of b) t ->
  Forall2 (update_call b (where_asks E b)) H given ->
  let sets := List.concat (map fst given) in let conds := List.concat (map snd given) in
  sets <> [] -> none_returns (stores b sets) -> conds <> [] \/ update_confirmed H ->
  let h := program E (map (pair b) (UTable (VStr t) :: H)) in
  let q := calls upd_step empty_update h in
  all_succeed upd_step empty_update h /\
  exists s st db', text (with_be E b) (VUpdate q) = Ok s /\ understood (dialect_of b) s = Some st /\ execute sv st db = Some db' /\
    Forall2 (fun old new => forall c, new c =
      if matches_items b sv conds old
      then match last_for c (stores b sets) with Some l => l | None => old c end
      else old c) (db (name_segments t)) (db' (name_segments t)) /\
    (forall p, p <> name_segments t -> db' p = db p).
Proof. exact update_objects. Qed.
Print Assumptions C71_update.

(** C71.  select(...).from_(t) with such conditions in where. *)
Theorem C71_select : forall E b sv db t H given, good_name (quote_of b) t ->
  Forall2 (select_call b (where_asks E b) t (supper E)) H given ->
  In (SFrom [VStr t] []) H -> bounded (wanted_limit H) -> bounded (wanted_offset H) ->
  (forall c a k v, In (c, VStr a) (flat_map ab_columns given) -> In (VStr k, v) (flat_map ab_order given) -> name_segments a <> name_segments k) ->
  let h := program E (map (pair b) H) in
  let q := calls sel_step empty_select h in
  all_succeed sel_step empty_select h /\
  exists s st cols order, text (with_be E b) (VSelect q) = Ok s /\ understood (dialect_of b) s = Some st /\
    first_occurrences (flat_map ab_columns given) cols /\ SpecLists.ordered_list (supper E) (flat_map ab_order given) order /\
    forall le out, answers sv le db st out <->
      program_answers le db (name_segments t) (columns_asked cols) (matches_items b sv (flat_map ab_where given)) order
        (wanted_limit H) (wanted_offset H) out.
Proof. exact select_objects. Qed.
Print Assumptions C71_select.

(** ** Examples *)
(** (Q(id=1) | Q(name=None)) *)
Definition either71 : cexp := XBin OpOr (XPairs false [] [(lit "id", VInt 1)] [(vs "id", VInt 1)]) (XPairs false [] [(lit "name", VNone)] [(vs "name", VNone)]).
(** Not(Q(id=1) | Q(name=None)) *)
Definition neither71 : cexp := XAll true [either71].
Lemma one_where : forall b c v, good_name (quote_of b) c -> condition_value b v -> where_call b [] [(c, v)] [(VStr c, v)].
Proof.
  intros b c v G V. split; [no_dict|]. split; [now left|]. split; [apply one_keyword|]. constructor; [|constructor]. split; [exists c; auto|exact V].
Qed.
Example C71_sensible : sensible BMySql neither71.
Proof.
  split; [split; [discriminate|now left]|]. split; [|exact Logic.I].
  split; [|split; [|split; reflexivity]]; (split; [|discriminate]); apply one_where; try exact Logic.I; (split; [cbn; intuition discriminate|vm_compute; discriminate]).
Qed.
Definition object71 (e : cexp) : val := match evaluate (pure_world (demo BMySql)) e with Ok x => x | Err _ => VNone end.
(** delete_from('t').where(Not(Q(id=1) | Q(name=None))) and delete_from('t').where(Q(id=1) | Q(name=None)) *)
Definition delete71 (e : cexp) : list delop := [DWhere [object71 e] []].
Example C71_ok : good_name (quote_of BMySql) (lit "t") /\
  Forall2 (delete_call (where_asks (demo BSql) BMySql)) (delete71 neither71) [[inr neither71]] /\
  Forall2 (delete_call (where_asks (demo BSql) BMySql)) (delete71 either71) [[inr either71]].
Proof.
  split; [split; [cbn; intuition discriminate|vm_compute; discriminate]|].
  split; (constructor; [|constructor]); cbn [delete_call];
    [apply (wi_objects _ _ [neither71] [object71 neither71])|apply (wi_objects _ _ [either71] [object71 either71])];
    try (split; [discriminate|now left]); try (constructor; [|constructor]).
  - exact C71_sensible.
  - vm_compute. reflexivity.
  - exact (proj1 (proj2 C71_sensible)).
  - vm_compute. reflexivity.
Qed.
Definition query71 (e : cexp) : delq val :=
  calls del_step empty_delete (program (demo BSql) (map (pair BMySql) (DFrom [vs "t"] [] :: delete71 e))).
Example C71_example :
  text (demo BMySql) (VDelete (query71 neither71)) = Ok (lit "DELETE FROM `t` WHERE NOT((`id` = 1 OR `name` IS NULL))") /\
  run BMySql (VDelete (query71 neither71)) = Some [(LInt 1, LText (lit "a")); (LInt 2, LNull)] /\
  text (demo BMySql) (VDelete (query71 either71)) = Ok (lit "DELETE FROM `t` WHERE (`id` = 1 OR `name` IS NULL)") /\
  run BMySql (VDelete (query71 either71)) = Some [(LInt 3, LText (lit "it's"))].
Proof. repeat split; vm_compute; reflexivity. Qed.
(** Not(...) & Q(...) is refused by the library. *)
Example C71_not_operand : evaluate (pure_world (demo BMySql)) (XBin OpAnd neither71 either71) = Err ETypeError.
Proof. vm_compute. reflexivity. Qed.
