(** Properties C55-C59: what a SQL server does with the rendered text.
    SpecSql.v is a small SQL server: [understood] tokenizes and parses a text,
    [truth] evaluates a condition in three-valued logic, [execute] runs a statement on
    tables.  SpecServer.v says what the library's objects ask for: [asked] the truth of
    a condition object, [selected] the rows, [assigned] and [row_asked] the values, and
    [..._ok], [..._fine] which objects are considered (names without quote characters,
    NULL, booleans, integers, strings, dates and bytes as values, nothing custom).
    [text E v] is str(v). *)
From Verif Require Import Base NumFmt Value Backend Render ParseArgs Build Queries History SpecLex SpecRef SpecLogic SpecWhole PfLiterals SpecSql SpecServer
  PfSqlTree PfSqlStmt PfSqlExec PfSqlTotal PfServer Demo.
Open Scope N_scope.

(** ** C55: conditions *)
Theorem C55_condition_truth : forall E x, cond_ok (e_be E) x ->
  exists t e, text E x = Ok t /\ understood_condition (dialect_of (e_be E)) t = Some e /\
    forall compare value, truth compare value e = asked (e_be E) compare value x.
Proof. exact condition_truth. Qed.
Print Assumptions C55_condition_truth.

(** ** C56: DELETE *)
Theorem C56_delete_statement : forall E q, delete_fine (e_be E) q -> d_where q <> [] \/ d_allow q = true ->
  exists t st, text E (VDelete q) = Ok t /\ understood (dialect_of (e_be E)) t = Some st /\ says_delete (e_be E) q st.
Proof. exact delete_statement. Qed.
Print Assumptions C56_delete_statement.

Theorem C56_delete_rows : forall E sv db q n p,
  d_tabs q = [] -> d_refs q = [MkTable n VNone []] -> name_ok (e_be E) n -> path_of n = Some p ->
  Forall (cond_ok (e_be E)) (d_where q) -> d_where q <> [] \/ d_allow q = true ->
  exists t st db', text E (VDelete q) = Ok t /\ understood (dialect_of (e_be E)) t = Some st /\ execute sv st db = Some db' /\
    db' p = filter (fun r => negb (selected (e_be E) sv (d_where q) r)) (db p) /\
    (forall p', p' <> p -> db' p' = db p').
Proof. exact delete_rows. Qed.
Print Assumptions C56_delete_rows.

(** ** C57: UPDATE *)
Theorem C57_update_statement : forall E q, update_fine (e_be E) q -> u_where q <> [] \/ u_allow q = true ->
  exists t st, text E (VUpdate q) = Ok t /\ understood (dialect_of (e_be E)) t = Some st /\ says_update (e_be E) q st.
Proof. exact update_statement. Qed.
Print Assumptions C57_update_statement.

Theorem C57_update_rows : forall E sv db q n p,
  u_tabs q = [MkTable n VNone []] -> path_of n = Some p -> update_fine (e_be E) q -> u_where q <> [] \/ u_allow q = true ->
  exists t st db', text E (VUpdate q) = Ok t /\ understood (dialect_of (e_be E)) t = Some st /\ execute sv st db = Some db' /\
    Forall2 (fun old new => forall c, new c =
      if selected (e_be E) sv (u_where q) old
      then match last_for c (assigned (e_be E) (u_vals q)) with Some l => l | None => old c end
      else old c) (db p) (db' p) /\
    (forall p', p' <> p -> db' p' = db p').
Proof. exact update_rows. Qed.
Print Assumptions C57_update_rows.

(** ** C58: INSERT *)
Theorem C58_insert_statement : forall E q, insert_fine (e_be E) q ->
  exists t st, text E (VInsert q) = Ok t /\ understood (dialect_of (e_be E)) t = Some st /\ says_insert (e_be E) q st.
Proof. exact insert_statement. Qed.
Print Assumptions C58_insert_statement.

Theorem C58_insert_rows : forall E sv db q n p,
  i_replace q = false -> i_tabs q = [MkTable n VNone []] -> path_of n = Some p -> insert_fine (e_be E) q ->
  exists t st db' new, text E (VInsert q) = Ok t /\ understood (dialect_of (e_be E)) t = Some st /\ execute sv st db = Some db' /\
    db' p = db p ++ new /\ Forall2 (fun given r => forall c, r c = row_asked (e_be E) given c) (i_rows q) new /\
    (forall p', p' <> p -> db' p' = db p').
Proof. exact insert_rows. Qed.
Print Assumptions C58_insert_rows.

(** ** C59: SELECT *)
Theorem C59_select_statement : forall E q, select_fine (e_be E) q ->
  exists t st, text E (VSelect q) = Ok t /\ understood (dialect_of (e_be E)) t = Some st /\ says_select (e_be E) q st.
Proof. exact select_statement. Qed.
Print Assumptions C59_select_statement.

(** ** Examples: queries built by calls *)
Ltac fits := repeat match goal with
  | |- _ /\ _ => split
  | |- True => exact Logic.I
  | |- _ <> _ => discriminate
  | |- ~ reference_shaped _ _ => apply no_quote_is_value; vm_compute; intuition discriminate
  | |- good_name _ _ => split; [vm_compute; intuition discriminate|vm_compute; discriminate]
  | |- joins_apart _ => left; repeat constructor
  | |- Forall _ _ => constructor
  | |- cond_ok _ (VConds _) => apply co_q
  | |- cond_ok _ (VNot _) => apply co_not
  | |- cond_ok _ (VCoC _ _ _) => apply co_bin
  | |- cond_ok _ (VCond _ _ _ _) => apply co_one
  | |- _ = _ => reflexivity
  | |- exists _, _ => eexists
  | |- context [select_fine] => unfold select_fine
  | |- delete_fine _ _ => unfold delete_fine
  | |- update_fine _ _ => unfold update_fine
  | |- insert_fine _ _ => unfold insert_fine
  | |- table_fine _ _ => unfold table_fine
  | |- join_fine _ _ => unfold join_fine
  | |- one_ok _ _ _ _ _ => unfold one_ok
  | |- _ \/ _ => left
  | |- _ => progress cbn [one_ok expr_ok name_ok alias_fine fst snd All value_ok unwrapped literal_of plain_literal operand_ok operand_of option_map
      expr_of path_of s_cols s_tabs s_where s_group s_having s_order s_out o_file d_tabs d_refs d_where u_tabs u_vals u_where
      i_tabs i_rows i_dup i_upd List.concat tb_name tb_alias tb_joins j_name j_alias j_ons app]
  end.
(** [q] is computed first. *)
Ltac computed q := let q' := eval vm_compute in q in replace q with q' by (vm_compute; reflexivity).

(** Nested, with None in a list, NOT, a comparison of two columns and a hostile string. *)
Definition cond55 : val :=
  VCoC OpOr (VConds [VCond KWhere (vs "t.a") RNotIn (VSeq KList [VInt (-3); VNone]); VCond KWhere (vs "b") RGe (VSqlR (vs "c"))])
            (VNot [VCond KWhere (vs "name") REq (vs "\' OR 1=1 --")]).
Example C55_ok : cond_ok BMySql cond55.
Proof. unfold cond55, vs. fits. Qed.
Example C55_example :
  text (demo BMySql) cond55 = Ok (lit "(((`t`.`a` NOT IN (-3) AND `t`.`a` IS NOT NULL) AND `b` >= `c`) OR NOT(`name` = '\\'' OR 1=1 --'))") /\
  understood_condition mysql_sql (lit "(((`t`.`a` NOT IN (-3) AND `t`.`a` IS NOT NULL) AND `b` >= `c`) OR NOT(`name` = '\\'' OR 1=1 --'))")
  = Some (SOr (SAnd (SAnd (SIn (EColumn [lit "t"; lit "a"]) true [LInt (-3)]) (SCompare (EColumn [lit "t"; lit "a"]) CIsNot (OLiteral LNull)))
                    (SCompare (EColumn [lit "b"]) CGe (OExpr (EColumn [lit "c"]))))
              (SNot (SCompare (EColumn [lit "name"]) CEq (OLiteral (LText (lit "\' OR 1=1 --")))))).
Proof. split; vm_compute; reflexivity. Qed.

(** A server that compares integers and texts, and a table of three rows. *)
Definition lit_le (x y : literal) : bool :=
  match x, y with LInt a, LInt b => (a <=? b)%Z | LText a, LText b => sltb a b || seqb a b | _, _ => false end.
Definition demo_server : server := MkServer
  (fun o x y => match o with
                | CEq | CIs => lit_le x y && lit_le y x | CNe => negb (lit_le x y && lit_le y x)
                | CLe => lit_le x y | CGe => lit_le y x | CLt => negb (lit_le y x) | CGt => negb (lit_le x y) | _ => false
                end)
  (fun _ _ _ => LNull).
Definition row_of (id : Z) (name : literal) : row := fun c => if seqb c (lit "id") then LInt id else if seqb c (lit "name") then name else LNull.
Definition demo_db : database := fun p => if path_eqb p [lit "t"] then [row_of 1 (LText (lit "a")); row_of 2 LNull; row_of 3 (LText (lit "it's"))] else [].
Definition shown (db : option database) : option (list (literal * literal)) :=
  option_map (fun db => map (fun r : row => (r (lit "id"), r (lit "name"))) (db [lit "t"])) db.
Definition run (b : backend) (v : val) : option (list (literal * literal)) :=
  match text (demo b) v with
  | Ok t => match understood (dialect_of b) t with Some st => shown (execute demo_server st demo_db) | None => None end
  | Err _ => None
  end.
Definition delete56 : delq val := calls del_step empty_delete
  [(demoW BMySql, DFrom [vs "t"] []); (demoW BMySql, DWhere [vs "name"; vs "it's"] [])].
Example C56_ok : delete_fine BMySql delete56.
Proof. computed delete56. fits. Qed.
Example C56_example : text (demo BMySql) (VDelete delete56) = Ok (lit "DELETE FROM `t` WHERE `name` = 'it''s'") /\
  run BMySql (VDelete delete56) = Some [(LInt 1, LText (lit "a")); (LInt 2, LNull)].
Proof. split; vm_compute; reflexivity. Qed.
Definition update57 : updq val := calls upd_step empty_update
  [(demoW BSqlite, UTable (vs "t")); (demoW BSqlite, USet [] [(lit "name", vs "x'; --")]); (demoW BSqlite, UWhere [vs "id"; VSeq KList [VInt 1; VInt 2]] [])].
Example C57_ok : update_fine BSqlite update57.
Proof. computed update57. fits. Qed.
Example C57_example : text (demo BSqlite) (VUpdate update57) = Ok (lit "UPDATE ""t"" SET ""name"" = 'x''; --' WHERE ""id"" IN (1, 2)") /\
  run BSqlite (VUpdate update57) = Some [(LInt 1, LText (lit "x'; --")); (LInt 2, LText (lit "x'; --")); (LInt 3, LText (lit "it's"))].
Proof. split; vm_compute; reflexivity. Qed.
Definition insert58 : insq val := calls ins_step empty_insert
  [(demoW BPostgres, IInto (vs "t")); (demoW BPostgres, IValues [] [(lit "name", vs "b"); (lit "id", VInt 7)]); (demoW BPostgres, IValues [] [(lit "id", VInt 8)])].
Example C58_ok : insert_fine BPostgres insert58.
Proof. computed insert58. fits. Qed.
Example C58_example : text (demo BPostgres) (VInsert insert58) = Ok (lit "INSERT INTO ""t"" (""id"", ""name"") VALUES (7, 'b'), (8, NULL)") /\
  run BPostgres (VInsert insert58)
  = Some [(LInt 1, LText (lit "a")); (LInt 2, LNull); (LInt 3, LText (lit "it's")); (LInt 7, LText (lit "b")); (LInt 8, LNull)].
Proof. split; vm_compute; reflexivity. Qed.
Definition select59 : selq val := calls sel_step empty_select
  [(demoW BMySql, SColumns [vs "t.id"; VAgg FCount true (vs "u.x")] []); (demoW BMySql, SFrom [vs "t"] []);
   (demoW BMySql, SJoin JLeft (VSeq KTuple [vs "user"; vs "u"])); (demoW BMySql, SOn [vs "t.id"; vs "u.t_id"] []);
   (demoW BMySql, SWhere [vs "name"; vs "FROM x WHERE"] []); (demoW BMySql, SGroupBy [vs "t.id"] []);
   (demoW BMySql, SOrderBy [VSeq KTuple [vs "id"; vs "desc"]] []); (demoW BMySql, SLimit (VInt 10) (VInt 5)); (demoW BMySql, SForUpdate (VBool true))].
Example C59_ok : select_fine BMySql select59.
Proof. computed select59. fits. Qed.
Example C59_example :
  text (demo BMySql) (VSelect select59) = Ok (lit "SELECT `t`.`id`, COUNT(DISTINCT `u`.`x`) FROM `t` LEFT JOIN `user` AS `u` ON `t`.`id` = `u`.`t_id` WHERE `name` = 'FROM x WHERE' GROUP BY `t`.`id` ORDER BY `id` DESC LIMIT 10 OFFSET 5 FOR UPDATE") /\
  (exists t, text (demo BMySql) (VSelect select59) = Ok t /\ understood mysql_sql t
  = Some (StSelect [] [(EColumn [lit "t"; lit "id"], None); (ECall (lit "COUNT") true [[lit "u"; lit "x"]], None)]
      [MkSource [lit "t"] None [MkJoined LeftJoin [lit "user"] (Some [lit "u"]) (Some (SCompare (EColumn [lit "t"; lit "id"]) CEq (OExpr (EColumn [lit "u"; lit "t_id"]))))]]
      (Some (SCompare (EColumn [lit "name"]) CEq (OLiteral (LText (lit "FROM x WHERE")))))
      [(EColumn [lit "t"; lit "id"], false)] None [(EColumn [lit "id"], true)] (Some 10%Z) (Some 5%Z) true)).
Proof. split; [vm_compute; reflexivity|]. eexists. split; vm_compute; reflexivity. Qed.
