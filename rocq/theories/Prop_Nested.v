(** Properties C60-C64: whole statements with queries inside queries, as a SQL server reads them.
    SpecNested.v is the reader: the tokenizer of SpecLex.v and a recursive-descent parser,
    [read_statement] and [read_condition], for expressions with functions, numbers and
    subqueries, derived tables, EXISTS, UNION, INTO OUTFILE and ON DUPLICATE KEY UPDATE.
    SpecSays.v is what the library's objects stand for: [query E x q], [condition E x t],
    [statement_said E x st].  [text E x] is str(x). *)
From Coq Require Import Sorted.
From Verif Require Import Base NumFmt Value Backend Render ParseArgs Build Queries History SpecLex SpecRef SpecLogic SpecClauses SpecWhole
  PfLiterals PfClauses SpecSql SpecServer SpecNested SpecSays PfNestStmt Demo.
Open Scope N_scope.

(** ** C60: selects and conditions *)
Theorem C60_query_read : forall E x q, query E x q ->
  exists t, text E x = Ok t /\ read_statement (dialect_of (e_be E)) t = Some (NSelect q).
Proof. exact select_read. Qed.
Print Assumptions C60_query_read.

Theorem C60_condition_read : forall E x t, condition E x t ->
  exists s, text E x = Ok s /\ read_condition (dialect_of (e_be E)) s = Some t.
Proof. exact condition_read. Qed.
Print Assumptions C60_condition_read.

(** ** C61: DELETE, UPDATE, INSERT *)
Theorem C61_statement_read : forall E x st, statement_said E x st ->
  exists t, text E x = Ok t /\ read_statement (dialect_of (e_be E)) t = Some st.
Proof. exact statement_read. Qed.
Print Assumptions C61_statement_read.

(** ** C62: one text, one meaning *)
Theorem C62_same_text : forall E x y s u, statement_said E x s -> statement_said E y u -> text E x = text E y -> s = u.
Proof. exact same_text. Qed.
Print Assumptions C62_same_text.

(** ** Showing what a concrete object stands for *)
Ltac name := split; [vm_compute; intuition discriminate|vm_compute; discriminate].
Ltac said := repeat match goal with
  | |- Forall2 _ _ _ => constructor
  | |- Forall _ _ => constructor
  | |- good_name _ _ => name
  | |- name_ok _ _ => cbn [name_ok]
  | |- alias_said _ VNone _ => split; [exact Logic.I|reflexivity]
  | |- alias_said _ _ _ => split; [name|split; [discriminate|reflexivity]]
  | |- plain_said _ (VStr _) _ => split; [reflexivity|apply no_quote_is_value; vm_compute; intuition discriminate]
  | |- plain_said _ _ _ => split; [reflexivity|exact Logic.I]
  | |- refers _ (VStr _) _ => apply rf_name
  | |- refers _ (VInt _) _ => apply rf_int
  | |- refers _ _ _ => apply rf_object
  | |- values _ (VStr _) _ => apply vl_plain
  | |- values _ (VInt _) _ => apply vl_plain
  | |- values _ VNone _ => apply vl_plain
  | |- values _ (VFloat _) _ => apply vl_plain; split; [vm_compute; reflexivity|exact Logic.I]
  | |- values _ _ _ => apply vl_object
  | |- object _ (VSqlV _) _ => apply ob_value
  | |- object _ (VSqlR _) _ => apply ob_refer
  | |- object _ (VAgg _ _ (VSeq _ _)) _ => apply ob_aggs; [auto|discriminate|]
  | |- object _ (VAgg _ _ _) _ => apply ob_agg
  | |- object _ (VConcat _) _ => apply ob_concat; [discriminate|]
  | |- object _ (VGroupConcat _ _ _) _ => apply ob_group_concat; [discriminate| | |]
  | |- object _ (VConvert _ _) _ => apply ob_convert; [|split; [discriminate|reflexivity]]
  | |- object _ _ _ => apply ob_query
  | |- unnamed _ _ _ => apply unnamed_
  | |- separator _ VNone _ => apply sp_none; reflexivity
  | |- separator _ _ _ => apply sp_some; [reflexivity|]
  | |- column _ _ _ => apply column_
  | |- ordering _ _ _ => apply ordering_
  | |- condition _ (VCond _ _ RIn (VSeq _ _)) _ =>
      first [apply cd_in; [|discriminate|reflexivity|] | apply cd_in_null; [|discriminate|reflexivity|cbn [not_none filter is_None negb]]]
  | |- condition _ (VCond _ _ RNotIn (VSeq _ _)) _ =>
      first [apply cd_not_in; [|discriminate|reflexivity|] | apply cd_not_in_null; [|discriminate|reflexivity|cbn [not_none filter is_None negb]]]
  | |- condition _ (VCond _ _ RIn _) _ => apply cd_in_query
  | |- condition _ (VCond _ _ RNotIn _) _ => apply cd_not_in_query
  | |- condition _ (VCond _ _ _ _) _ => eapply cd_compare; [|reflexivity|]
  | |- condition _ (VExists _) _ => apply cd_exists
  | |- condition _ (VConds _) _ => apply cd_q
  | |- condition _ (VNot _) _ => apply cd_not
  | |- condition _ (VCoC OpAnd _ _) _ => apply cd_and
  | |- condition _ (VCoC OpOr _ _) _ => apply cd_or
  | |- operand _ KOn (VStr _) _ => apply op_column
  | |- operand _ _ _ _ => apply op_value; [exact Logic.I|]
  | |- conjunction _ _ _ => eapply conj_
  | |- all_of _ = Some _ => reflexivity
  | |- clause_said _ [] _ => apply cs_none
  | |- clause_said _ _ _ => apply cs_some; [discriminate|]
  | |- from_said _ (VStr _) _ => eapply fs_name; [|reflexivity]
  | |- from_said _ _ _ => apply fs_query
  | |- join_said _ _ _ => apply join_
  | |- table_said _ (MkTable _ _ []) _ => eapply tbl_; [| |apply mg_nil|]
  | |- table_said _ (MkTable _ _ [_]) _ => eapply tbl_; [| |eapply mg_cons; [apply parted_nil|apply st_alone|apply mg_nil]|cbn [app]]
  | |- core_said _ _ _ => apply core_; [cbn [columns_asked]| | | |]
  | |- out_said _ (MkOutfile None _ _ _) _ => apply os_none; reflexivity
  | |- out_said _ _ _ => apply os_some; [| | |auto]
  | |- given_said _ None _ => apply gs_none
  | |- given_said _ _ _ => apply gs_some
  | |- fields_said _ None _ _ => apply fd_none
  | |- fields_said _ _ _ _ => apply fd_some
  | |- chain _ (VSelect _) _ _ => apply ch_one; [|reflexivity|reflexivity|reflexivity|reflexivity]
  | |- chain _ _ _ _ => apply ch_union
  | |- query _ (VSelect _) _ => apply qu_select; cbn [s_order s_out]
  | |- query _ _ _ => apply qu_union
  | |- assignment _ _ _ => eapply as_; [|reflexivity|]
  end.

(** ** C63: the operands of a union do not keep their own ORDER BY and LIMIT *)
Definition select (ops : list selop) : selq val := calls sel_step empty_select (map (fun o => (demoW BMySql, o)) ops).
Definition limited (n : string) : val := VSelect (select [SFrom [vs n] []; SLimit (VInt 1) VNone]).
Definition plain (n : string) : val := VSelect (select [SFrom [vs n] []]).
Theorem C63_union_tails_refuted : exists a b,
  (* an operand alone is read as built ... *)
  (exists core, query (demo BMySql) (limited "a") (NQuery core [] [] (Some 1%Z) None None false)) /\
  (* ... the limit of the left operand makes the union unreadable ... *)
  mk_union UUnion (limited "a") (plain "b") = Ok a /\ (exists t, text (demo BMySql) a = Ok t /\ read_statement mysql_sql t = None) /\
  (* ... and the limit of the right operand limits the whole union *)
  mk_union UUnion (plain "a") (limited "b") = Ok b /\
  (exists t c1 c2, text (demo BMySql) b = Ok t /\ t = lit "SELECT * FROM `a` UNION SELECT * FROM `b` LIMIT 1" /\
    read_statement mysql_sql t = Some (NSelect (NQuery c1 [(false, c2)] [] (Some 1%Z) None None false))).
Proof.
  do 2 eexists. split; [|split; [vm_compute; reflexivity|split; [|split; [vm_compute; reflexivity|]]]].
  - eexists. let q := eval vm_compute in (limited "a") in change (limited "a") with q. said.
  - eexists. split; [vm_compute; reflexivity|]. vm_compute. reflexivity.
  - do 3 eexists. split; [vm_compute; reflexivity|]. split; [vm_compute; reflexivity|]. vm_compute. reflexivity.
Qed.
Print Assumptions C63_union_tails_refuted.

(** ** C64: INTO OUTFILE with all its options *)
Definition outfile64 (ops : list selop) : val := VSelect (select (SFrom [vs "t"] [] :: SOut OFile (vs "/tmp/x") :: ops)).
Theorem C64_outfile_options_refuted : exists t,
  text (demo BMySql) (outfile64 [SOut OFields (vs ","); SOut OEncl (VStr [34]); SOut OLines (vs "|")]) = Ok t /\
  t = lit "SELECT * FROM `t` INTO OUTFILE '/tmp/x' FIELDS TERMINATED BY ',' LINES TERMINATED BY '|' OPTIONALLY ENCLOSED BY '""'" /\
  read_statement mysql_sql t = None /\
  (* the same options in the order of the grammar, and any two of them *)
  read_statement mysql_sql (lit "SELECT * FROM `t` INTO OUTFILE '/tmp/x' FIELDS TERMINATED BY ',' OPTIONALLY ENCLOSED BY '""' LINES TERMINATED BY '|'") <> None /\
  (exists q, query (demo BMySql) (outfile64 [SOut OFields (vs ","); SOut OEncl (VStr [34])]) q) /\
  (exists q, query (demo BMySql) (outfile64 [SOut OFields (vs ","); SOut OLines (vs "|")]) q).
Proof.
  eexists. split; [vm_compute; reflexivity|]. split; [vm_compute; reflexivity|]. split; [vm_compute; reflexivity|]. split; [vm_compute; discriminate|]. split.
  - eexists. match goal with |- query _ ?x _ => let q := eval vm_compute in x in change x with q end. said.
  - eexists. match goal with |- query _ ?x _ => let q := eval vm_compute in x in change x with q end. said.
Qed.
Print Assumptions C64_outfile_options_refuted.

(** ** Examples *)
(** A subquery as a column, as a table, joined, in IN and EXISTS; functions. *)
Definition inner60 : val := VSelect (select [SColumns [vs "id"; VSeq KTuple [VAgg FMax false (vs "x"); vs "m"]] []; SFrom [vs "u"] []; SWhere [vs "name"; vs "it's) OR ("] []]).
Definition query60 : selq val := select
  [SColumns [vs "t.id"; VSeq KTuple [inner60; vs "s"]; VGroupConcat [(vs "a", VNone)] [(vs "b", Desc)] (vs "; "); VConvert (VSqlV (vs "5")) (Some (lit "SIGNED"))] [];
   SFrom [VSeq KTuple [inner60; vs "t"]] []; SJoin JLeft (VSeq KTuple [inner60; vs "v"]); SOn [vs "t.id"; vs "v.id"] [];
   SWhere [VCoC OpOr (VConds [VCond KWhere (vs "id") RNotIn inner60]) (VExists inner60)] []; SWhere [vs "x"; inner60] [];
   SHaving [VAgg FCount true (VSeq KTuple [vs "a"; vs "b"]); VSqlR (vs "t.n")] []; SLimit (VInt 3) VNone].
Example C60_ok : exists q, query (demo BMySql) (VSelect query60) q.
Proof. eexists. let q := eval vm_compute in query60 in change query60 with q. said. Qed.
Example C60_example : text (demo BMySql) (VSelect query60) = Ok (lit "SELECT `t`.`id`, (SELECT `id`, MAX(`x`) AS `m` FROM `u` WHERE `name` = 'it''s) OR (') AS `s`, GROUP_CONCAT(`a` ORDER BY `b` DESC SEPARATOR '; '), CONVERT('5', SIGNED) FROM (SELECT `id`, MAX(`x`) AS `m` FROM `u` WHERE `name` = 'it''s) OR (') AS `t` LEFT JOIN (SELECT `id`, MAX(`x`) AS `m` FROM `u` WHERE `name` = 'it''s) OR (') AS `v` ON `t`.`id` = `v`.`id` WHERE (`id` NOT IN (SELECT `id`, MAX(`x`) AS `m` FROM `u` WHERE `name` = 'it''s) OR (') OR EXISTS(SELECT `id`, MAX(`x`) AS `m` FROM `u` WHERE `name` = 'it''s) OR (')) AND `x` = (SELECT `id`, MAX(`x`) AS `m` FROM `u` WHERE `name` = 'it''s) OR (') HAVING COUNT(DISTINCT `a`, `b`) = `t`.`n` LIMIT 3").
Proof. vm_compute. reflexivity. Qed.
(** A union inside IN; updates with other columns, functions and subqueries as values. *)
Definition delete61 : delq val := calls del_step empty_delete
  [(demoW BPostgres, DFrom [vs "t"] []); (demoW BPostgres, DWhere [VCond KWhere (vs "id") RIn (VUnion UAll (VSelect (select [SColumns [vs "a"] []; SFrom [vs "x"] []]))
     (VSelect (select [SColumns [vs "b"] []; SFrom [vs "y"] []])))] [])].
Definition update61 : updq val := calls upd_step empty_update
  [(demoW BSqlite, UTable (vs "t")); (demoW BSqlite, USet [] [(lit "a", VSqlR (vs "b")); (lit "n", VSelect (select [SColumns [VAgg FCount false (vs "*")] []; SFrom [vs "u"] []]));
     (lit "f", VFloat (NFin false 3 2))]); (demoW BSqlite, UAllow)].
Definition insert61 : insq val := calls ins_step empty_insert
  [(demoW BMySql, IInto (vs "t")); (demoW BMySql, IValues [] [(lit "id", VInt 7); (lit "name", VConcat [(vs "x", VNone); (VSqlV (vs "y"), VNone)])]);
   (demoW BMySql, IValues [] [(lit "id", VInt 8)]); (demoW BMySql, IOnDup [] [(lit "name", VSqlR (vs "x"))])].
Example C61_delete_ok : exists st, statement_said (demo BPostgres) (VDelete delete61) st.
Proof. eexists. let q := eval vm_compute in delete61 in change delete61 with q. apply sm_delete; [left; discriminate|discriminate| | |]; said. Qed.
Example C61_update_ok : exists st, statement_said (demo BSqlite) (VUpdate update61) st.
Proof. eexists. let q := eval vm_compute in update61 in change update61 with q. apply sm_update; [now right|discriminate|discriminate| | |]; said. Qed.
Example C61_insert_ok : exists st, statement_said (demo BMySql) (VInsert insert61) st.
Proof.
  eexists. let q := eval vm_compute in insert61 in change insert61 with q.
  apply (sm_insert (demo BMySql)) with (cols := [lit "id"; lit "name"]) (p := [lit "t"]).
  - name.
  - reflexivity.
  - discriminate.
  - repeat constructor; try (vm_compute; intuition discriminate).
  - discriminate.
  - repeat constructor.
  - intros c. cbn. split.
    + intros [<-|[<-|[]]]; eexists; (split; [now left|cbn; auto]).
    + intros [row [[<-|[<-|[]]] I]]; cbn in I; intuition.
  - constructor; [|constructor; [|constructor]]; (constructor; [|constructor; [|constructor]]); try (eapply ce_some; [reflexivity|]); try (apply ce_none; reflexivity); said.
  - said.
Qed.
Example C61_example :
  text (demo BPostgres) (VDelete delete61) = Ok (lit "DELETE FROM ""t"" WHERE ""id"" IN (SELECT ""a"" FROM ""x"" UNION ALL SELECT ""b"" FROM ""y"")") /\
  text (demo BSqlite) (VUpdate update61) = Ok (lit "UPDATE ""t"" SET ""a"" = ""b"", ""f"" = 1.50000, ""n"" = (SELECT COUNT(*) FROM ""u"")") /\
  text (demo BMySql) (VInsert insert61) = Ok (lit "INSERT INTO `t` (`id`, `name`) VALUES (7, CONCAT(`x`, 'y')), (8, NULL) ON DUPLICATE KEY UPDATE `name` = `x`") /\
  read_statement mysql_sql (lit "INSERT INTO `t` (`id`, `name`) VALUES (7, CONCAT(`x`, 'y')), (8, NULL) ON DUPLICATE KEY UPDATE `name` = `x`")
  = Some (NInsert false false [lit "t"] [[lit "id"]; [lit "name"]]
      [[NLiteral (LInt 7); NCall (lit "CONCAT") false [NColumn [lit "x"]; NLiteral (LText (lit "y"))]]; [NLiteral (LInt 8); NLiteral LNull]]
      [([lit "name"], NColumn [lit "x"])]).
Proof. repeat split; vm_compute; reflexivity. Qed.
(** Two different objects with one text. *)
Definition object62 (c : val) : val := VSelect (select [SColumns [c] []; SFrom [vs "t"] []]).
Example C62_example : (exists s, statement_said (demo BMySql) (object62 (vs "a.b")) s) /\ (exists s, statement_said (demo BMySql) (object62 (VSqlR (vs "a.b"))) s) /\
  object62 (vs "a.b") <> object62 (VSqlR (vs "a.b")) /\ text (demo BMySql) (object62 (vs "a.b")) = text (demo BMySql) (object62 (VSqlR (vs "a.b"))).
Proof.
  split; [|split; [|split; [vm_compute; discriminate|vm_compute; reflexivity]]].
  - eexists. apply sm_select. match goal with |- query _ ?x _ => let q := eval vm_compute in x in change x with q end. said.
  - eexists. apply sm_select. match goal with |- query _ ?x _ => let q := eval vm_compute in x in change x with q end. said.
Qed.
