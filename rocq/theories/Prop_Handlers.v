(** Except clauses (C81) and repr() (C82).  Specification: SpecHandlers.v, SpecClient.v, SpecErrors.v. *)
From Verif Require Import Base NumFmt Value Backend Eq Render ParseArgs Build Queries History Names Demo SpecErrors SpecClient SpecHandlers SpecFails SpecSub PfNames.
Open Scope N_scope.

(** C81.  An except clause catches what the documentation says, and nothing else. *)
Theorem C81_clauses : forall raised clause, issubclass raised clause = true <-> documented raised clause.
Proof. exact hierarchy. Qed.
Print Assumptions C81_clauses.
(** C81.  In a program of calls with objects of the API (C79), other than the calls of C44,
    "except InvalidArgumentException" around the calls misses nothing, and str() of what was
    built does not raise, or "except ConfirmException" around it misses nothing, and neither does the clause for the
    confirmation of that statement. *)
Theorem C81_select : forall E, (forall v, e_pystr E v <> None) -> forall b ops,
  Forall (sel_given (client E)) ops -> Forall (regular_sel (with_be E b)) ops ->
  let built := run_calls (pure_world (with_be E b)) sel_step empty_select ops in
  always_handled built XInvalidArgument /\ forall q, built = Ok q -> exists t, text (with_be E b) (VSelect q) = Ok t.
Proof. exact select_handlers. Qed.
Print Assumptions C81_select.
Theorem C81_update : forall E, (forall v, e_pystr E v <> None) -> forall b ops,
  Forall (upd_given (client E)) ops -> Forall (regular_upd (with_be E b)) ops ->
  let built := run_calls (pure_world (with_be E b)) upd_step empty_update ops in
  always_handled built XInvalidArgument /\ forall q, built = Ok q -> always_handled (text (with_be E b) (VUpdate q)) XConfirm /\ always_handled (text (with_be E b) (VUpdate q)) XConfirmUpdate.
Proof. exact update_handlers. Qed.
Print Assumptions C81_update.
Theorem C81_delete : forall E, (forall v, e_pystr E v <> None) -> forall b ops,
  Forall (del_given (client E)) ops -> Forall (regular_del (with_be E b)) ops ->
  let built := run_calls (pure_world (with_be E b)) del_step empty_delete ops in
  always_handled built XInvalidArgument /\ forall q, built = Ok q -> always_handled (text (with_be E b) (VDelete q)) XConfirm /\ always_handled (text (with_be E b) (VDelete q)) XConfirmDelete.
Proof. exact delete_handlers. Qed.
Print Assumptions C81_delete.
Theorem C81_insert : forall E, (forall v, e_pystr E v <> None) -> forall b ops,
  Forall (ins_given (client E)) ops -> Forall (regular_ins (with_be E b)) ops -> Forall named_columns ops ->
  let built := run_calls (pure_world (with_be E b)) ins_step empty_insert ops in
  always_handled built XInvalidArgument /\ forall q, built = Ok q -> exists t, text (with_be E b) (VInsert q) = Ok t.
Proof. exact insert_handlers. Qed.
Print Assumptions C81_insert.

(** C82.  repr() raises exactly what str() raises; ... *)
Theorem C82_raises : forall E x e, py_repr E x = Err e <-> text E x = Err e.
Proof. exact repr_raises. Qed.
Print Assumptions C82_raises.
(** ... two objects of the library that show the same are of one class and have the same text. *)
Theorem C82_tells : forall E x y r, is_sql x = true -> is_sql y = true -> py_repr E x = Ok r -> py_repr E y = Ok r ->
  one_class x y /\ exists t, text E x = Ok t /\ text E y = Ok t.
Proof. exact repr_told. Qed.
Print Assumptions C82_tells.

(** ** Examples *)
(** delete_from('t').on('a', 'b') has no join: the clause InvalidArgumentException catches InvalidQueryException. *)
Definition plainE := MkEnv BSql (fun _ => Some (lit "?")) (fun c => [c]) (fun c => [c]) (fun _ => true).
Definition ops81 : list delop := [DFrom [vs "t"] []; DOn [vs "a"; vs "b"] []].
Example C81_ok : (forall v, e_pystr plainE v <> None) /\ Forall (del_given (client plainE)) ops81 /\ Forall (regular_del (with_be plainE BSql)) ops81.
Proof.
  assert (S : forall s, client plainE (VStr s)) by (intros; apply cl_data; [reflexivity|exact Logic.I]).
  split; [discriminate|]. split.
  - constructor; [|constructor; [|constructor]]; split; try constructor; try apply S; try constructor; try apply S; constructor.
  - constructor; [|constructor; [|constructor]]; (split; [constructor|intros items H; discriminate H]).
Qed.
Example C81_example :
  let W := pure_world (with_be plainE BSql) in
  run_calls W del_step empty_delete ops81 = Err EInvalidQuery /\
  try_except (run_calls W del_step empty_delete ops81) XInvalidArgument (fun _ => Ok empty_delete) = Ok empty_delete /\
  (* str() of the delete without condition *)
  try_except (text plainE (VDelete (fst (del_step W empty_delete (DFrom [vs "t"] []))))) XConfirm (fun e => Ok (lit "asked")) = Ok (lit "asked") /\
  try_except (text plainE (VDelete (fst (del_step W empty_delete (DFrom [vs "t"] []))))) XInvalidArgument (fun e => Ok (lit "asked")) = Err EConfirmDelete /\
  issubclass XTypeError XSqlPuzzle = false.
Proof. repeat split; vm_compute; reflexivity. Qed.
Example C82_example :
  py_repr (demo BMySql) (VSelect (fst (sel_step (demoW BMySql) empty_select (SFrom [vs "t"] [])))) = Ok (lit "<Select: SELECT * FROM `t`>") /\
  py_repr (demo BMySql) (VSqlR (vs "a")) = Ok (lit "<SqlReference: `a`>") /\
  (* an unconfirmed delete cannot be shown *)
  py_repr (demo BMySql) (VDelete (fst (del_step (demoW BMySql) empty_delete (DFrom [vs "t"] [])))) = Err EConfirmDelete.
Proof. repeat split; vm_compute; reflexivity. Qed.
(** SqlValue(1) and SqlValue(True) show the same; CustomSql('1') shows its class. *)
Example C82_tells_ok :
  is_sql (VSqlV (VInt 1)) = true /\ is_sql (VSqlV (VBool true)) = true /\
  py_repr (demo BMySql) (VSqlV (VInt 1)) = Ok (lit "<SqlValue: 1>") /\
  py_repr (demo BMySql) (VSqlV (VBool true)) = Ok (lit "<SqlValue: 1>") /\
  py_repr (demo BMySql) (VCustom (lit "1")) = Ok (lit "<CustomSql: 1>").
Proof. repeat split; vm_compute; reflexivity. Qed.
