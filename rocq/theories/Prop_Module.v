(** The functions of the module: C100.  Specification: SpecModule.v. *)
From Verif Require Import Base NumFmt Value Backend Eq Render RenderFacts ParseArgs Build Queries History Demo Entries
  SpecArgs SpecHistory SpecClauses SpecFunctions SpecEntry SpecModule SpecClient PfModule PfClient PfModuleClient.
Open Scope N_scope.

(** C100.  avg, count, max, min, sum and their _distinct forms, with the expression given by position or by keyword, or, to
    count and count_distinct, not given: the SQL function of that name, with DISTINCT exactly for the _distinct forms. *)
Theorem C100_aggregates : forall n k d W args kwds e, In (n, k, d) aggregates -> expr_given k args kwds e ->
  exists f, call_module W n args kwds = Ok f /\
    forall E t, text E f = Ok t <-> exists a, aggregate_text E k e a /\ t = in_brackets (function_word k) (distinct_word d ++ a).
Proof. exact aggregate_called. Qed.
Print Assumptions C100_aggregates.
(** Every other call of them raises TypeError. *)
Theorem C100_refused : forall n k d W args kwds, In (n, k, d) aggregates -> NoDup (map fst kwds) ->
  (forall e, ~ expr_given k args kwds e) -> call_module W n args kwds = Err ETypeError.
Proof. exact aggregate_refused. Qed.
Print Assumptions C100_refused.
(** Of one column, and of a list or tuple of columns. *)
Theorem C100_name : forall E n k d W c, In (n, k, d) aggregates -> one_part (e_be E) c ->
  exists f, call_module W n [VStr c] [] = Ok f /\ text E f = Ok (in_brackets (function_word k) (distinct_word d ++ in_quotes (e_be E) c)).
Proof. exact aggregate_name. Qed.
Print Assumptions C100_name.
Theorem C100_names : forall E n k d W ns s, In (n, k, d) aggregates -> ns <> [] -> Forall (one_part (e_be E)) ns ->
  s = VSeq KList (map VStr ns) \/ s = VSeq KTuple (map VStr ns) ->
  exists f, call_module W n [s] [] = Ok f /\ text E f = Ok (in_brackets (function_word k) (distinct_word d ++ names_text (e_be E) ns)).
Proof. exact aggregate_names. Qed.
Print Assumptions C100_names.
(** concat and group_concat of columns, in the order given. *)
Theorem C100_concat : forall E ns, ns <> [] -> Forall (one_part (e_be E)) ns -> NoDup ns ->
  exists f g, call_module (pure_world E) (lit "concat") (map VStr ns) [] = Ok f /\ text E f = Ok (in_brackets (lit "CONCAT") (names_text (e_be E) ns)) /\
    call_module (pure_world E) (lit "group_concat") (map VStr ns) [] = Ok g /\ text E g = Ok (in_brackets (lit "GROUP_CONCAT") (names_text (e_be E) ns)).
Proof. exact concat_names. Qed.
Print Assumptions C100_concat.
(** convert(c, type), however the two are given: the type in capitals after the column. *)
Theorem C100_convert : forall E args kwds c ty, convert_given args kwds (VStr c) (VStr ty) -> one_part (e_be E) c -> ty <> [] ->
  exists f, call_module (pure_world E) (lit "convert") args kwds = Ok f /\
    text E f = Ok (in_brackets (lit "CONVERT") (in_quotes (e_be E) c ++ lit ", " ++ supper E ty)).
Proof. exact convert_name. Qed.
Print Assumptions C100_convert.
(** exists(x) is EXISTS around the text of x. *)
Theorem C100_exists : forall W args kwds x, expr_given FAvg args kwds x ->
  exists f, call_module W (lit "exists") args kwds = Ok f /\ forall E t, text E f = Ok t <-> exists u, text E x = Ok u /\ t = in_brackets (lit "EXISTS") u.
Proof. exact exists_called. Qed.
Print Assumptions C100_exists.
(** C, V and R are customsql, sqlvalue and sqlreference; C(s) is s itself. *)
Theorem C100_shortcuts : forall W args kwds,
  call_module W (lit "C") args kwds = call_module W (lit "customsql") args kwds /\
  call_module W (lit "V") args kwds = call_module W (lit "sqlvalue") args kwds /\
  call_module W (lit "R") args kwds = call_module W (lit "sqlreference") args kwds.
Proof. intros. repeat split. Qed.
Print Assumptions C100_shortcuts.
Theorem C100_texts : forall E s c, one_part (e_be E) c ->
  exists f g h, call_module (pure_world E) (lit "C") [VStr s] [] = Ok f /\ text E f = Ok s /\
    call_module (pure_world E) (lit "R") [VStr c] [] = Ok g /\ text E g = Ok (in_quotes (e_be E) c) /\
    call_module (pure_world E) (lit "C") [] [] = Ok h /\ text E h = Ok [].
Proof. exact shortcut_texts. Qed.
Print Assumptions C100_texts.
(** V makes values and R references, of which C11, C06 and others tell the texts. *)
Theorem C100_values : forall W args kwds v, value_given args kwds v ->
  call_module W (lit "V") args kwds = Ok (VSqlV v) /\ call_module W (lit "R") args kwds = Ok (VSqlR v).
Proof. exact value_called. Qed.
Print Assumptions C100_values.
(** Not takes what Q takes, and its text is NOT around that of Q. *)
Theorem C100_not : forall W args kwds,
  match call_module W (lit "Q") args kwds with
  | Ok f => exists g, call_module W (lit "Not") args kwds = Ok g /\ forall E t, text E g = Ok t <-> exists u, text E f = Ok u /\ t = in_brackets (lit "NOT") u
  | Err e => call_module W (lit "Not") args kwds = Err e
  end.
Proof. exact not_called. Qed.
Print Assumptions C100_not.
(** select, select_from, delete_from and delete with names. *)
Theorem C100_starts : forall E ns, ns <> [] -> Forall (one_part (e_be E)) ns -> NoDup ns ->
  exists q f d r, call_module (pure_world E) (lit "select") (map VStr ns) [] = Ok (VSelect q) /\
      text E (VSelect q) = Ok (lit "SELECT " ++ names_text (e_be E) ns) /\
    call_module (pure_world E) (lit "select_from") (map VStr ns) [] = Ok (VSelect f) /\
      text E (VSelect f) = Ok (lit "SELECT * FROM " ++ names_text (e_be E) ns) /\
    call_module (pure_world E) (lit "delete_from") (map VStr ns) [] = Ok (VDelete d) /\
      text E (VDelete (fst (del_step (pure_world E) d DAllow))) = Ok (lit "DELETE FROM " ++ names_text (e_be E) ns) /\
    call_module (pure_world E) (lit "delete") (map VStr ns) [] = Ok (VDelete r) /\
      text E (VDelete (fst (del_run (pure_world E) r [DFrom (map VStr ns) []; DAllow]))) =
        Ok (lit "DELETE " ++ names_text (e_be E) ns ++ lit " FROM " ++ names_text (e_be E) ns).
Proof. exact starts. Qed.
Print Assumptions C100_starts.
(** update and insert_into with a table. *)
Theorem C100_starts_one : forall E t c z x, one_part (e_be E) t -> one_part (e_be E) c -> text E (VSqlV (VInt z)) = Ok x ->
  exists q r, call_module (pure_world E) (lit "update") [VStr t] [] = Ok (VUpdate q) /\
      text E (VUpdate (fst (upd_run (pure_world E) q [USet [] [(c, VInt z)]; UAllow]))) =
        Ok (lit "UPDATE " ++ in_quotes (e_be E) t ++ lit " SET " ++ in_quotes (e_be E) c ++ lit " = " ++ x) /\
    call_module (pure_world E) (lit "insert_into") [VStr t] [] = Ok (VInsert r) /\
      text E (VInsert (fst (ins_run (pure_world E) r [IValues [] [(c, VInt z)]]))) =
        Ok (lit "INSERT INTO " ++ in_quotes (e_be E) t ++ lit " (" ++ in_quotes (e_be E) c ++ lit ") VALUES (" ++ x ++ lit ")").
Proof. exact starts_one. Qed.
Print Assumptions C100_starts_one.
(** insert() takes nothing, insert_into and update one table (also table=t), delete no keywords; other calls raise TypeError. *)
Theorem C100_statements : forall W t,
  (forall args kwds, call_module W (lit "insert") args kwds = Err ETypeError <-> args <> [] \/ kwds <> []) /\
  (forall n, In n [lit "insert_into"; lit "update"] ->
    call_module W n [] [(lit "table", t)] = call_module W n [t] [] /\ call_module W n [] [] = Err ETypeError /\
    forall a b args kwds, call_module W n (a :: b :: args) kwds = Err ETypeError) /\
  (forall args p kwds, call_module W (lit "delete") args (p :: kwds) = Err ETypeError).
Proof. exact statements_called. Qed.
Print Assumptions C100_statements.

(** What any of these functions, other than those that start an INSERT, UPDATE or DELETE, makes of objects of a program is
    such an object again, so C79 is about it: it prints under every backend, whichever was configured when it was made. *)
Theorem C100_prints : forall E b n args kwds f, (forall v, e_pystr E v <> None) ->
  (forall y, In y (args ++ map snd kwds) -> client E y) -> call_module (at_backend E b) n args kwds = Ok f ->
  match f with VInsert _ | VUpdate _ | VDelete _ => False | _ => True end ->
  client E f /\ forall b', exists t, text (with_be E b') f = Ok t.
Proof. intros E b n args kwds f P G C S. assert (F := module_client E b args kwds G n f C S). split; [exact F|]. intros b'. now apply client_prints. Qed.
Print Assumptions C100_prints.

(** ** Examples *)
Example C100_example :
  (do f <- call_module (demoW BMySql) (lit "max_distinct") [] [(lit "expr", vs "a")]; text (demo BMySql) f) = Ok (lit "MAX(DISTINCT `a`)") /\
  (do f <- call_module (demoW BMySql) (lit "count_distinct") [] []; text (demo BMySql) f) = Ok (lit "COUNT(DISTINCT *)") /\
  (do f <- call_module (demoW BMySql) (lit "sum") [VSeq KTuple [vs "a"; vs "b"]] []; text (demo BMySql) f) = Ok (lit "SUM(`a`, `b`)") /\
  call_module (demoW BMySql) (lit "avg") [] [] = Err ETypeError /\
  (do f <- call_module (demoW BMySql) (lit "convert") [vs "a"] [(lit "type_", vs "signed")]; text (demo BMySql) f) = Ok (lit "CONVERT(`a`, SIGNED)") /\
  (do f <- call_module (demoW BMySql) (lit "Not") [] [(lit "a", VInt 1)]; text (demo BMySql) f) = Ok (lit "NOT(`a` = 1)") /\
  (do f <- call_module (demoW BMySql) (lit "group_concat") [vs "a"; vs "b"] []; text (demo BMySql) f) = Ok (lit "GROUP_CONCAT(`a`, `b`)").
Proof. repeat split; vm_compute; reflexivity. Qed.
Example C100_ok : In (lit "max_distinct", FMax, true) aggregates /\ expr_given FCount [] [] VNone /\
  (forall e, ~ expr_given FAvg [] [] e) /\ one_part BMySql (lit "my name") /\
  convert_given [] [(lit "type_", vs "signed"); (lit "expr", vs "a")] (vs "a") (vs "signed").
Proof.
  split; [cbn; tauto|]. split; [now constructor|]. split; [intros e H; inversion H; discriminate|]. split; [|constructor].
  assert (O : forall c, existsb (N.eqb c) (lit "my name") = false -> ~ In c (lit "my name")).
  { intros c X I. assert (Y : existsb (N.eqb c) (lit "my name") = true) by (apply existsb_exists; exists c; auto using N.eqb_refl). congruence. }
  split; [discriminate|]. split; [apply O; reflexivity|]. split; [apply O; reflexivity|discriminate].
Qed.
(** exists(select_from('t')) is made of what select_from makes. *)
Definition anyE := MkEnv BMySql (fun _ => Some (lit "?")) (fun c => [c]) (fun c => [c]) (fun _ => true).
Example C100_prints_ok : (forall v, e_pystr anyE v <> None) /\ exists f g, call_module (at_backend anyE BMySql) (lit "select_from") [vs "t"] [] = Ok f /\
  call_module (at_backend anyE BMySql) (lit "exists") [f] [] = Ok g /\ client anyE (vs "t") /\ client anyE f /\
  text (with_be anyE BSql) g = Ok (lit "EXISTS(SELECT * FROM ""t"")").
Proof.
  assert (T : client anyE (vs "t")) by (apply cl_data; [reflexivity|exact Logic.I]).
  split; [discriminate|]. do 2 eexists. split; [vm_compute; reflexivity|]. split; [reflexivity|]. split; [exact T|]. split; [|vm_compute; reflexivity].
  apply (module_client anyE BMySql [vs "t"] []) with (n := lit "select_from"); [|vm_compute; reflexivity|exact Logic.I].
  intros y [<-|[]]. exact T.
Qed.
