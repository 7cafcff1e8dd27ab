(** Properties C39 (equality of ON conditions) and C51 (equality of queries). *)
From Verif Require Import Base NumFmt Value Backend Eq Render ParseArgs Build Queries Demo
  SpecArgs History SpecHistory SpecClauses SpecEquality PfEquality.
Open Scope N_scope.

(** C39 *)
Theorem C39_equal : forall E a r b a' r' b',
  py_eq E (on_cond a r b) (on_cond a' r' b') = Ok true <-> same_on (a, r, b) (a', r', b').
Proof. exact on_equal. Qed.
Print Assumptions C39_equal.
Theorem C39_decided : forall E a r b a' r' b', exists x, py_eq E (on_cond a r b) (on_cond a' r' b') = Ok x.
Proof. exact on_equal_ok. Qed.
Print Assumptions C39_decided.
Theorem C39_equivalence : forall E,
  (forall a r b, py_eq E (on_cond a r b) (on_cond a r b) = Ok true) /\
  (forall a r b a' r' b', py_eq E (on_cond a r b) (on_cond a' r' b') = py_eq E (on_cond a' r' b') (on_cond a r b)) /\
  (forall a r b a' r' b' a'' r'' b'', py_eq E (on_cond a r b) (on_cond a' r' b') = Ok true ->
     py_eq E (on_cond a' r' b') (on_cond a'' r'' b'') = Ok true -> py_eq E (on_cond a r b) (on_cond a'' r'' b'') = Ok true).
Proof. exact on_equivalence. Qed.
Print Assumptions C39_equivalence.
(** The comparison by which joins are grouped: decided, and an equivalence as well. *)
Theorem C39_joins : forall E,
  (forall j k, column_join j -> column_join k -> exists x, join_equal E j k = Ok x) /\
  (forall j, column_join j -> join_equal E j j = Ok true) /\
  (forall j k, column_join j -> column_join k -> join_equal E j k = join_equal E k j) /\
  (forall j k l, column_join j -> column_join k -> column_join l ->
     join_equal E j k = Ok true -> join_equal E k l = Ok true -> join_equal E j l = Ok true).
Proof. exact joins_equivalence. Qed.
Print Assumptions C39_joins.
(** With C objects in place of column names symmetry is lost. *)
Theorem C39_not_for_objects : exists p q,
  mk_condition KOn (vs """b""") (vs "a") = Ok p /\ mk_condition KOn (vs "a") (VSqlR (vs "b")) = Ok q /\
  py_eq (demo BSql) p q = Ok true /\ py_eq (demo BSql) q p = Ok false.
Proof.
  exists (VCond KOn (vs """b""") REq (vs "a")), (VCond KOn (vs "a") REq (VSqlR (vs "b"))). vm_compute. auto.
Qed.
Print Assumptions C39_not_for_objects.
(** on('t.a', 'u.a') and on('u.b', LT('t.b')) make such conditions. *)
Example C39_example :
  fst (conds_where (demoW BSql) KOn [] [vs "t.a"; vs "u.a"] []) = [on_cond (lit "t.a") REq (lit "u.a")] /\
  fst (conds_where (demoW BSql) KOn [] [vs "u.b"; VRel RLt (vs "t.b")] []) = [on_cond (lit "u.b") RLt (lit "t.b")] /\
  same_on (lit "u.b", RLt, lit "t.b") (lit "t.b", RGt, lit "u.b") /\
  column_join (MkJoin JLeft (vs "u") VNone [on_cond (lit "u.b") RLt (lit "t.b")]) /\
  join_equal (demo BSql) (MkJoin JLeft (vs "u") VNone [on_cond (lit "u.b") RLt (lit "t.b")])
                         (MkJoin JInner (vs "u") VNone [on_cond (lit "t.b") RGt (lit "u.b")]) = Ok true.
Proof.
  split; [vm_compute; reflexivity|]. split; [vm_compute; reflexivity|]. split; [constructor; constructor|].
  split; [|vm_compute; reflexivity]. split; [eexists; reflexivity|]. split; [left; reflexivity|].
  constructor; [|constructor]. do 3 eexists. reflexivity.
Qed.

(** C51.  Reflexivity fails for NaN. *)
Theorem C51_reflexive_refuted : exists q, mk_select (demoW BSql) [vs "a"] [] = Ok q /\
  let q' := fst (sel_step (demoW BSql) q (SWhere [vs "a"; VFloat NNan] [])) in
  snd (sel_step (demoW BSql) q (SWhere [vs "a"; VFloat NNan] [])) = Ok tt /\ py_eq (demo BSql) (VSelect q') (VSelect q') = Ok false.
Proof. eexists. split; [vm_compute; reflexivity|]. vm_compute. auto. Qed.
Print Assumptions C51_reflexive_refuted.
(** Equal queries with different texts: 1 == True and 1 == 1.0; a mirrored ON; the conflict
    column of PostgreSQL; permission to delete everything. *)
Definition C51_run_sel (b : backend) ops := calls sel_step empty_select (map (fun op => (demoW b, op)) ops).
Definition C51_run_ins (b : backend) ops := calls ins_step empty_insert (map (fun op => (demoW b, op)) ops).
Definition C51_run_del (b : backend) ops := calls del_step empty_delete (map (fun op => (demoW b, op)) ops).
Theorem C51_same_text_refuted :
  (exists q q', q = C51_run_sel BPostgres [SFrom [vs "t"] []; SWhere [vs "a"; VInt 1] []] /\
                q' = C51_run_sel BPostgres [SFrom [vs "t"] []; SWhere [vs "a"; VBool true] []] /\
     py_eq (demo BPostgres) (VSelect q) (VSelect q') = Ok true /\
     text (demo BPostgres) (VSelect q) = Ok (lit "SELECT * FROM ""t"" WHERE ""a"" = 1") /\
     text (demo BPostgres) (VSelect q') = Ok (lit "SELECT * FROM ""t"" WHERE ""a"" = true")) /\
  (exists q q', q = C51_run_sel BSql [SFrom [vs "t"] []; SWhere [vs "a"; VInt 1] []] /\
                q' = C51_run_sel BSql [SFrom [vs "t"] []; SWhere [vs "a"; VFloat (NFin false 1 1)] []] /\
     py_eq (demo BSql) (VSelect q) (VSelect q') = Ok true /\
     text (demo BSql) (VSelect q) = Ok (lit "SELECT * FROM ""t"" WHERE ""a"" = 1") /\
     text (demo BSql) (VSelect q') = Ok (lit "SELECT * FROM ""t"" WHERE ""a"" = 1.00000")) /\
  (exists q q', q = C51_run_sel BSql [SFrom [vs "t"] []; SJoin JInner (vs "u"); SOn [vs "a"; vs "b"] []] /\
                q' = C51_run_sel BSql [SFrom [vs "t"] []; SJoin JInner (vs "u"); SOn [vs "b"; vs "a"] []] /\
     py_eq (demo BSql) (VSelect q) (VSelect q') = Ok true /\
     text (demo BSql) (VSelect q) = Ok (lit "SELECT * FROM ""t"" JOIN ""u"" ON ""a"" = ""b""") /\
     text (demo BSql) (VSelect q') = Ok (lit "SELECT * FROM ""t"" JOIN ""u"" ON ""b"" = ""a""")) /\
  (exists q q', q = C51_run_ins BPostgres [IInto (vs "t"); IValues [vs "a"; VInt 1] []; IOnDup [vs "id"; vs "a"; VInt 2] []] /\
                q' = C51_run_ins BPostgres [IInto (vs "t"); IValues [vs "a"; VInt 1] []; IOnDup [vs "name"; vs "a"; VInt 2] []] /\
     py_eq (demo BPostgres) (VInsert q) (VInsert q') = Ok true /\
     text (demo BPostgres) (VInsert q) = Ok (lit "INSERT INTO ""t"" (""a"") VALUES (1) ON CONFLICT (""id"") DO UPDATE ""a"" = 2") /\
     text (demo BPostgres) (VInsert q') = Ok (lit "INSERT INTO ""t"" (""a"") VALUES (1) ON CONFLICT (""name"") DO UPDATE ""a"" = 2")) /\
  (exists q q', q = C51_run_del BSql [DFrom [vs "t"] []] /\ q' = C51_run_del BSql [DFrom [vs "t"] []; DAllow] /\
     py_eq (demo BSql) (VDelete q) (VDelete q') = Ok true /\
     text (demo BSql) (VDelete q) = Err EConfirmDelete /\ text (demo BSql) (VDelete q') = Ok (lit "DELETE FROM ""t""")).
Proof.
  split; [|split; [|split; [|split]]]; do 2 eexists; (split; [reflexivity|split; [reflexivity|]]); (split; [|split]); vm_compute; reflexivity.
Qed.
Print Assumptions C51_same_text_refuted.
(** What holds: everything in the query being comparable, it equals itself. *)
Theorem C51_reflexive_partial : forall E v, comparable E v -> py_eq E v v = Ok true.
Proof. exact comparable_refl. Qed.
Print Assumptions C51_reflexive_partial.
(** Equal queries of exact data are the same query up to the conflict column and the permissions
    (so their texts are the same). *)
Theorem C51_equal_same_partial : forall E,
  (forall p q, (forall x, In x (sel_vals p ++ sel_vals q) -> exact x) -> py_eq E (VSelect p) (VSelect q) = Ok true -> p = q) /\
  (forall p q, (forall x, In x (ins_vals p ++ ins_vals q) -> exact x) -> py_eq E (VInsert p) (VInsert q) = Ok true -> i_conflict p = i_conflict q -> p = q) /\
  (forall p q, (forall x, In x (upd_vals p ++ upd_vals q) -> exact x) -> py_eq E (VUpdate p) (VUpdate q) = Ok true -> u_allow p = u_allow q -> p = q) /\
  (forall p q, (forall x, In x (del_vals p ++ del_vals q) -> exact x) -> py_eq E (VDelete p) (VDelete q) = Ok true -> d_allow p = d_allow q -> p = q).
Proof. exact equal_same_query. Qed.
Print Assumptions C51_equal_same_partial.
Definition C51_query : selq val :=
  C51_run_sel BSql [SColumns [vs "a"; VSeq KTuple [vs "b"; vs "x"]] []; SFrom [vs "t"] []; SJoin JLeft (vs "u");
                    SWhere [vs "n"; VSeq KList [VInt 1; VInt 2]] [(lit "m", VNone)]; SOrderBy [vs "a"] []; SLimit (VInt 3) VNone].
Lemma C51_leaf : forall E v, textual_eq v = false -> match v with VStr _ | VInt _ | VNone => True | _ => False end -> comparable E v /\ exact v.
Proof.
  intros E v T L. destruct v; try destruct L; (split; [apply cm_other|constructor]); try reflexivity; try exact Logic.I; intros x [].
Qed.
Example C51_example : comparable (demo BSql) (VSelect C51_query) /\ (forall x, In x (sel_vals C51_query) -> exact x) /\
  py_eq (demo BSql) (VSelect C51_query) (VSelect C51_query) = Ok true /\
  text (demo BSql) (VSelect C51_query)
    = Ok (lit "SELECT ""a"", ""b"" AS ""x"" FROM ""t"" LEFT JOIN ""u"" WHERE ""n"" IN (1, 2) AND ""m"" IS NULL ORDER BY ""a"" LIMIT 3").
Proof.
  assert (A : forall x, In x (sel_vals C51_query) -> comparable (demo BSql) x /\ exact x).
  { intros x I. vm_compute in I.
    repeat (destruct I as [<-|I]; [first [apply C51_leaf; [reflexivity|exact Logic.I]|idtac]|]); try destruct I.
    - split; [apply cm_other|constructor]; try reflexivity; try exact Logic.I;
        (intros y [<-|[<-|[]]]; [apply (C51_leaf (demo BSql)); [reflexivity|exact Logic.I]|]);
        [apply cm_other|constructor]; cbn; auto; intros z [<-|[<-|[]]]; apply (C51_leaf (demo BSql)); auto; exact Logic.I.
    - split; [apply cm_other|constructor]; try reflexivity; try exact Logic.I;
        intros y [<-|[<-|[]]]; apply (C51_leaf (demo BSql)); auto; exact Logic.I. }
  split; [apply cm_other; [reflexivity|exact Logic.I|intros x I; now apply A]|]. split; [intros x I; now apply A|]. vm_compute. auto.
Qed.
