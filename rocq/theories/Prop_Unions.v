(** Selects over joined tables, with options and any conditions, combined with & and |: C98.
    Specification: SpecUnions.v, SpecUnion.v, SpecBackends.v, SpecObjects.v, SpecDistinct.v, SpecJoin.v, SpecSql.v. *)
From Coq Require Import Permutation.
From Verif Require Import Base NumFmt Value Backend Eq Render ParseArgs Build Queries History Demo
  SpecLex SpecRef SpecLogic SpecHistory SpecArgs SpecErrors SpecWhole SpecSql SpecServer SpecProgram SpecProgramQ SpecBackends SpecUnion SpecJoin SpecDistinct SpecObjects SpecUnions
  PfUnions Prop_Server Prop_Program Prop_ProgramQ Prop_Join Prop_Distinct Prop_Objects.
Open Scope N_scope.

(** C98.  The expression evaluates, its text is a union of SELECTs, and a table is an answer iff each row is in it as often
    as the answers to the operands on their own, combined by the operators from left to right, say. *)
Theorem C98_unions : forall E sv find db n e, (0 < n)%nat -> Forall (plain_operand (e_be E) n) (operands e) ->
  exists v s st l, built e v /\ text E v = Ok s /\ understood_union (dialect_of (e_be E)) s = Some (st, l) /\
    forall le, (forall x, exists c, operandwise (alone E sv find le db x) e c) /\ (exists out, unions sv find le db st l out) /\
      forall out, unions sv find le db st l out <-> forall x c, operandwise (alone E sv find le db x) e c -> count x out = read_sql c.
Proof. exact unions_rows. Qed.
Print Assumptions C98_unions.

(** C98.  For the expressions of C42 that are read as they are meant: as often as the expression says. *)
Theorem C98_meant : forall E sv find db n e, (0 < n)%nat -> Forall (plain_operand (e_be E) n) (operands e) -> faithful e ->
  exists v s st l, built e v /\ text E v = Ok s /\ understood_union (dialect_of (e_be E)) s = Some (st, l) /\
    forall le out, unions sv find le db st l out <-> forall x c, operandwise (alone E sv find le db x) e c -> count x out = denoted c.
Proof. exact unions_meant. Qed.
Print Assumptions C98_meant.

(** C98.  From the arguments of the calls: the operands are built by programs of C93, each of which says how often it asks for
    a row. *)
Theorem C98_programs : forall E b sv find db n e eq, (0 < n)%nat -> mirrored sv -> Forall (union_operand_ok E b n) (operands e) ->
  operandwise (fun P q => q = calls sel_step empty_select (program E (uo_calls P))) e eq ->
  Forall (fun P => all_succeed sel_step empty_select (program E (uo_calls P))) (operands e) /\
  exists v s st l, built eq v /\ text (with_be E b) v = Ok s /\ understood_union (dialect_of b) s = Some (st, l) /\
    forall le, (forall x, exists c, operandwise (asked_times b sv find le db x) e c) /\ (exists out, unions sv find le db st l out) /\
      forall out, (unions sv find le db st l out <-> forall x c, operandwise (asked_times b sv find le db x) e c -> count x out = read_sql c) /\
        (faithful e -> (unions sv find le db st l out <-> forall x c, operandwise (asked_times b sv find le db x) e c -> count x out = denoted c)).
Proof. exact unions_asked. Qed.
Print Assumptions C98_programs.

(** ** Examples.  Tables of C92: user 3 has two orders, users 2 and 4 have one name. *)
(** columns('u.name').from_(('user', 'u')).join(('order', 'o')).on('u.id', 'o.user'), with distinct() or not *)
Definition program98 (distinct : bool) : union_operand := MkUnionOperand
  ([(BMySql, SColumns [vs "u.name"] []); (BMySql, SFrom [VSeq KTuple [vs "user"; vs "u"]] []); (BMySql, SJoin JInner (VSeq KTuple [vs "order"; vs "o"]));
    (BMySql, SOn [vs "u.id"; vs "o.user"] [])] ++ if distinct then [(BMySql, SOpt ODistinct (VBool true))] else [])
  ([(MkAsks [(vs "u.name", VNone)] [] [] [], []); (MkAsks [] [PTables [(vs "user", vs "u")]] [] [], []);
    (MkAsks [] [PJoin InnerJoin (vs "order") (vs "o")] [] [], []); (MkAsks [] [POn [(vs "u.id", vs "o.user")]] [] [], [])] ++ if distinct then [(nothing, [])] else [])
  srcs92.
Definition operand98 (distinct : bool) : selq val := calls sel_step empty_select (program (demo BMySql) (uo_calls (program98 distinct))).
Definition union98 : uexpr (selq val) := UOp UAll (ULeaf (operand98 true)) (ULeaf (operand98 false)).
Example C98_ok : forall d, plain_operand BMySql 1 (operand98 d).
Proof.
  intros d. split; [destruct d; [computed (operand98 true)|computed (operand98 false)]; fits|].
  split; [|destruct d; vm_compute; repeat split].
  destruct d; (constructor; [|constructor]; exists (lit "u.name"); split; [vm_compute; reflexivity|vm_compute; discriminate]).
Qed.
Example C98_programs_ok : forall d, union_operand_ok (demo BMySql) BMySql 1 (program98 d).
Proof.
  intros d. split; [|split; [destruct d; reflexivity|split; [destruct d; vm_compute; repeat constructor; cbn; intuition discriminate|split; [destruct d; repeat constructor|split]]]].
  - cbn [program98 uo_calls uo_given]. apply Forall2_app.
    + constructor; [|constructor; [|constructor; [|constructor; [|constructor]]]]; cbn [fst snd]; (apply sw_other; [apply oc_join|intros; discriminate]).
      * apply jc_columns; [no_dict| |].
        -- apply (aa_items _ [(vs "u.name", VNone)] [] []); [one_item| |split; [reflexivity|constructor]].
           constructor; [right; split; [data|reflexivity]|constructor].
        -- constructor; [|constructor]. split; [named|left; reflexivity].
      * apply jc_from; [no_dict| |].
        -- apply (aa_items _ [(vs "user", vs "u")] [] []); [one_item|tuple_item|split; [reflexivity|constructor]].
        -- constructor; [|constructor]. split; [named|right; named].
      * apply (jc_join _ _ _ JInner); [|split; [named|right; named]|discriminate]. apply SpecLists.ja_pair. right. reflexivity.
      * apply jc_on; [no_dict|has_data|two_args|]. constructor; [|constructor]. split; [named|]. cbn. split; [cbn; intuition discriminate|vm_compute; discriminate].
    + destruct d; [constructor; [|constructor]|constructor]. apply sw_other; [apply oc_option|intros; discriminate].
  - destruct d; (constructor; [|constructor]; exists (lit "u.name"); split; [reflexivity|vm_compute; discriminate]).
  - exists [(vs "u.name", VNone)]. split; [|reflexivity]. destruct d; (apply (fo_new [] [] (vs "u.name", VNone)); [constructor|intros []]).
Qed.
Example C98_example : faithful union98 /\ text (demo BMySql) (VUnion UAll (VSelect (operand98 true)) (VSelect (operand98 false))) =
  Ok (lit "SELECT DISTINCT `u`.`name` FROM `user` AS `u` JOIN `order` AS `o` ON `u`.`id` = `o`.`user` UNION ALL SELECT `u`.`name` FROM `user` AS `u` JOIN `order` AS `o` ON `u`.`id` = `o`.`user`").
Proof. split; [repeat constructor|vm_compute; reflexivity]. Qed.
(** The name b is shown once by the first operand, twice by the second: three times by the union. *)
Example C98_rows : operandwise (alone (demo BMySql) demo_server find74 lit_le db92 [LText (lit "b")]) union98 (UOp UAll (ULeaf 1%nat) (ULeaf 2%nat)) /\
  denoted (UOp UAll (ULeaf 1%nat) (ULeaf 2%nat)) = 3%nat.
Proof.
  split; [|reflexivity].
  assert (A : forall d, alone (demo BMySql) demo_server find74 lit_le db92 [LText (lit "b")] (operand98 d) (if d then 1 else 2)%nat).
  { intros d. destruct d; (eexists; eexists; eexists; split; [vm_compute; reflexivity|split; [vm_compute; reflexivity|split; [|]]]).
    1, 3: apply (joined_settled demo_server find74); [constructor; [|constructor]; eexists; split; [reflexivity|discriminate]|apply Permutation_refl].
    all: vm_compute; reflexivity. }
  constructor; constructor; [exact (A true)|exact (A false)].
Qed.
