(** Property C45: the string literals of a whole query.
    [text E v] is str(v), [tokens] reads it as a server of the configured backend does
    (SpecLex.v).  SpecWhole.v: [harmless] (no custom SQL, quote-free names, string values
    that are not written as references), [written] (the literals expected, in order),
    [blank] (the query with every string value replaced by a question mark). *)
From Verif Require Import Base NumFmt Value Backend Render ParseArgs Build Queries History SpecLex SpecRef PfLiterals SpecWhole PfWholeAll Demo.
Open Scope N_scope.

(** Missing for the full property: two joins of one table to the same table under the
    same alias whose ON conditions hold literals (refuted below), string values shaped
    like a quoted reference (C06), and query objects with a dictionary, an unknown
    object, an empty list or an empty Q() in a value position, most of which are
    rejected or written as broken SQL. *)
Theorem C45_values_are_literals_partial : forall E v t, harmless (e_be E) AsSql v -> text E v = Ok t ->
  literals (tokens (dialect_of (e_be E)) t) = written (e_be E) AsSql v /\
  Forall settled (tokens (dialect_of (e_be E)) t).
Proof. exact whole_literals. Qed.
Print Assumptions C45_values_are_literals_partial.

Theorem C45_code_independent_partial : forall E v w t u, harmless (e_be E) AsSql v -> harmless (e_be E) AsSql w ->
  blank AsSql v = blank AsSql w -> text E v = Ok t -> text E w = Ok u ->
  code (tokens (dialect_of (e_be E)) t) = code (tokens (dialect_of (e_be E)) u).
Proof. exact whole_code. Qed.
Print Assumptions C45_code_independent_partial.

(** The same select with two sets of values. *)
Definition query45 (a b c : string) : val :=
  VSelect (calls sel_step empty_select
    [(demoW BMySql, SFrom [vs "t"] []); (demoW BMySql, SJoin JLeft (vs "u")); (demoW BMySql, SOn [vs "t.id"; VSqlV (vs a)] []);
     (demoW BMySql, SWhere [vs "name"; vs b] []); (demoW BMySql, SWhere [vs "x"; VSeq KList [vs c; VInt 3; VNone]] []);
     (demoW BMySql, SOrderBy [vs "t.id"] [])]).
Ltac not_quoted := apply no_quote_is_value; vm_compute; intuition discriminate.
Ltac harm := repeat match goal with
  | |- _ /\ _ => split
  | |- True => exact Logic.I
  | |- _ <> _ => discriminate
  | |- ~ reference_shaped _ _ => not_quoted
  | |- ~ In _ _ => vm_compute; intuition discriminate
  | |- good_name _ _ => split; [vm_compute; intuition discriminate|vm_compute; discriminate]
  | |- joins_kept _ _ => left; vm_compute; repeat constructor
  | |- _ = _ => reflexivity
  end.
Example C45_harmless : harmless BMySql AsSql (query45 "a'b" "\' OR 1=1; --" "/*") /\ harmless BMySql AsSql (query45 "" "" "x").
Proof.
  split; match goal with |- harmless _ _ ?q => let q' := eval vm_compute in q in replace q with q' by (vm_compute; reflexivity) end;
  cbn [harmless All pair_ok alias_ok table_ok join_ok out_ok option_ok compared_as]; harm.
Qed.
Example C45_example :
  text (demo BMySql) (query45 "a'b" "\' OR 1=1; --" "/*") = Ok (lit "SELECT * FROM `t` LEFT JOIN `u` ON `t`.`id` = 'a''b' WHERE `name` = '\\'' OR 1=1; --' AND (`x` IN ('/*', 3) OR `x` IS NULL) ORDER BY `t`.`id`") /\
  written BMySql AsSql (query45 "a'b" "\' OR 1=1; --" "/*") = [lit "a'b"; lit "\' OR 1=1; --"; lit "/*"] /\
  text (demo BMySql) (query45 "" "" "x") = Ok (lit "SELECT * FROM `t` LEFT JOIN `u` ON `t`.`id` = '' WHERE `name` = '' AND (`x` IN ('x', 3) OR `x` IS NULL) ORDER BY `t`.`id`") /\
  blank AsSql (query45 "a'b" "\' OR 1=1; --" "/*") = blank AsSql (query45 "" "" "x").
Proof. repeat split; vm_compute; reflexivity. Qed.

(** An insert of two rows. *)
Definition insert45 (a b : string) : val :=
  VInsert (calls ins_step empty_insert
    [(demoW BPostgres, IInto (vs "t")); (demoW BPostgres, IValues [] [(lit "b", vs a); (lit "a", VInt 1)]);
     (demoW BPostgres, IValues [] [(lit "b", vs b)])]).
Example C45_insert_harmless : harmless BPostgres AsSql (insert45 "'); --" "y").
Proof.
  match goal with |- harmless _ _ ?q => let q' := eval vm_compute in q in replace q with q' by (vm_compute; reflexivity) end;
  cbn [harmless All pair_ok alias_ok table_ok join_ok out_ok option_ok compared_as]; harm.
Qed.
Example C45_insert_example :
  text (demo BPostgres) (insert45 "'); --" "y") = Ok (lit "INSERT INTO ""t"" (""a"", ""b"") VALUES (1, '''); --'), (NULL, 'y')") /\
  written BPostgres AsSql (insert45 "'); --" "y") = [lit "'); --"; lit "y"].
Proof. split; vm_compute; reflexivity. Qed.

(** The full property is false: two joins of the same table are written as one if their
    conditions are equal, so the text outside the literals depends on the values. *)
Definition joins45 (a b : string) : val :=
  VSelect (calls sel_step empty_select
    [(demoW BMySql, SFrom [vs "t"] []); (demoW BMySql, SJoin JInner (vs "u")); (demoW BMySql, SOn [vs "u.k"; VSqlV (vs a)] []);
     (demoW BMySql, SJoin JInner (vs "u")); (demoW BMySql, SOn [vs "u.k"; VSqlV (vs b)] [])]).
Theorem C45_joins_refuted : exists a b a' b' t u,
  blank AsSql (joins45 a b) = blank AsSql (joins45 a' b') /\
  text (demo BMySql) (joins45 a b) = Ok t /\ text (demo BMySql) (joins45 a' b') = Ok u /\
  code (tokens mysql_sql t) <> code (tokens mysql_sql u) /\
  literals (tokens mysql_sql t) = [lit "x"] /\ literals (tokens mysql_sql u) = [lit "x"; lit "y"].
Proof.
  exists "x"%string, "x"%string, "x"%string, "y"%string,
    (lit "SELECT * FROM `t` JOIN `u` ON `u`.`k` = 'x'"), (lit "SELECT * FROM `t` JOIN `u` ON `u`.`k` = 'x' JOIN `u` ON `u`.`k` = 'y'").
  split; [vm_compute; reflexivity|]. split; [vm_compute; reflexivity|]. split; [vm_compute; reflexivity|].
  split; [vm_compute; discriminate|]. split; vm_compute; reflexivity.
Qed.
Print Assumptions C45_joins_refuted.
