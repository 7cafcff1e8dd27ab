(** Selects of any kind, grouped ones included, combined with & and |: C99.
    Specification: SpecUnionAny.v, SpecUnion.v, SpecBackends.v, SpecServer.v. *)
From Coq Require Import Permutation.
From Verif Require Import Base NumFmt Value Backend Eq Render ParseArgs Build Queries History Demo
  SpecLex SpecRef SpecLogic SpecHistory SpecArgs SpecErrors SpecWhole SpecSql SpecServer SpecProgram SpecProgramQ SpecBackends SpecUnion SpecJoin SpecGroup SpecDistinct SpecGroupAll
  SpecUnions SpecUnionAny PfUnions PfUnionAny Prop_Server Prop_Program Prop_Join Prop_Group Prop_Distinct Prop_Unions.
Open Scope N_scope.

(** C99.  Whatever tables the server may answer to one SELECT: it may answer [out] to the text of the expression iff it may
    answer tables to the operands on their own that give each row as often, combined by the operators from left to right. *)
Theorem C99_unions : forall E rows n e, (0 < n)%nat -> Forall (any_operand (e_be E) n) (operands e) ->
  exists v s st l, built e v /\ text E v = Ok s /\ understood_union (dialect_of (e_be E)) s = Some (st, l) /\
    forall out, (unions_of rows st l out <-> exists c, operandwise (answered rows E) e c /\ forall x, count x out = read_sql (counted_in x c)) /\
      (faithful e -> (unions_of rows st l out <-> exists c, operandwise (answered rows E) e c /\ forall x, count x out = denoted (counted_in x c))).
Proof. exact unions_any. Qed.
Print Assumptions C99_unions.

(** ** Examples *)
(** columns('u.name', (Count('o.total'), 'n')).from_(('user', 'u')).join(('order', 'o')).on('u.id', 'o.user').group_by('u.name').having(Count('o.total'), GT(1)) *)
Definition grouped99 : selq val := calls sel_step empty_select (program (demo BMySql)
  [(BMySql, SColumns [vs "u.name"; VSeq KTuple [VAgg FCount false (vs "o.total"); vs "n"]] []); (BMySql, SFrom [VSeq KTuple [vs "user"; vs "u"]] []);
   (BMySql, SJoin JInner (VSeq KTuple [vs "order"; vs "o"])); (BMySql, SOn [vs "u.id"; vs "o.user"] []); (BMySql, SGroupBy [vs "u.name"] []);
   (BMySql, SHaving [VAgg FCount false (vs "o.total"); VRel RGt (VInt 1)] [])]).
(** columns('name', 'id').from_('user') *)
Definition plain99 : selq val := calls sel_step empty_select (program (demo BMySql)
  [(BMySql, SColumns [vs "name"; vs "id"] []); (BMySql, SFrom [vs "user"] [])]).
Definition union99 : uexpr (selq val) := UOp UUnion (UOp UAll (ULeaf grouped99) (ULeaf plain99)) (ULeaf grouped99).
Example C99_ok : Forall (any_operand BMySql 2) (operands union99) /\ faithful union99.
Proof.
  assert (G : any_operand BMySql 2 grouped99).
  { computed grouped99. split; [fits|]. split; [reflexivity|]. split; [|repeat split].
    constructor; [|constructor; [|constructor]]; intros p Q; [injection Q as <-; vm_compute; discriminate|discriminate Q]. }
  assert (P : any_operand BMySql 2 plain99).
  { computed plain99. split; [fits|]. split; [reflexivity|]. split; [|repeat split].
    constructor; [|constructor; [|constructor]]; intros p Q; injection Q as <-; vm_compute; discriminate. }
  split; [constructor; [exact G|constructor; [exact P|constructor; [exact G|constructor]]]|]. intros ops t Q. destruct ops; discriminate Q.
Qed.
Example C99_example : text (demo BMySql) (VUnion UUnion (VUnion UAll (VSelect grouped99) (VSelect plain99)) (VSelect grouped99)) =
  Ok (lit "SELECT `u`.`name`, COUNT(`o`.`total`) AS `n` FROM `user` AS `u` JOIN `order` AS `o` ON `u`.`id` = `o`.`user` GROUP BY `u`.`name` HAVING COUNT(`o`.`total`) > 1 UNION ALL SELECT `name`, `id` FROM `user` UNION SELECT `u`.`name`, COUNT(`o`.`total`) AS `n` FROM `user` AS `u` JOIN `order` AS `o` ON `u`.`id` = `o`.`user` GROUP BY `u`.`name` HAVING COUNT(`o`.`total`) > 1").
Proof. vm_compute. reflexivity. Qed.
(** A server's answer to one operand, with the answers of C98; the tables of C92. *)
Example C99_answered : answered (joined_rows demo_server find74 lit_le db92) (demo BMySql) (operand98 true) [[LText (lit "c")]; [LText (lit "b")]].
Proof.
  eexists. eexists. split; [vm_compute; reflexivity|]. split; [vm_compute; reflexivity|].
  apply (joined_settled demo_server find74); [constructor; [|constructor]; eexists; split; [reflexivity|discriminate]|].
  vm_compute. apply Permutation_refl.
Qed.
