(** Programs that combine selects with & and |, from the arguments of the calls to the rows: C77.
    Specification: SpecUnion.v, SpecBackends.v, SpecProgramQ.v, SpecSql.v. *)
From Coq Require Import Permutation.
From Verif Require Import Base NumFmt Value Backend Eq Render ParseArgs Build Queries History Demo
  SpecLex SpecRef SpecLogic SpecHistory SpecArgs SpecErrors SpecWhole SpecSql SpecServer SpecProgram SpecProgramQ SpecBackends SpecUnion
  PfUnionRows Prop_Server Prop_Program Prop_ProgramQ.
Open Scope N_scope.

(** C77.  The expression evaluates, its text is a union of SELECTs, and a table is an answer iff each row
    is in it as often as the operands and the operators, read from left to right, say. *)
Theorem C77_unions : forall E b sv db n e eq, (0 < n)%nat -> Forall (operand_ok E b n) (operands e) ->
  operandwise (fun P q => q = calls sel_step empty_select (program E (map (pair b) (op_calls P)))) e eq ->
  Forall (fun P => all_succeed sel_step empty_select (program E (map (pair b) (op_calls P)))) (operands e) /\
  exists v s st l, built eq v /\ text (with_be E b) v = Ok s /\ understood_union (dialect_of b) s = Some (st, l) /\
    (forall x, exists c, operandwise (times b sv db x) e c) /\
    forall le, (exists out, union_answers sv le db st l out) /\
      forall out, union_answers sv le db st l out <-> forall x c, operandwise (times b sv db x) e c -> count x out = read_sql c.
Proof. exact union_rows. Qed.
Print Assumptions C77_unions.

(** C77.  For the expressions of C42 that are read as they are meant: as often as the expression says. *)
Theorem C77_meant : forall E b sv db n e eq, (0 < n)%nat -> Forall (operand_ok E b n) (operands e) ->
  operandwise (fun P q => q = calls sel_step empty_select (program E (map (pair b) (op_calls P)))) e eq ->
  faithful e ->
  exists v s st l, built eq v /\ text (with_be E b) v = Ok s /\ understood_union (dialect_of b) s = Some (st, l) /\
    forall le out, union_answers sv le db st l out <-> forall x c, operandwise (times b sv db x) e c -> count x out = denoted c.
Proof. exact union_meant. Qed.
Print Assumptions C77_meant.

(** ** Examples *)
(** select('name').from_('t').where(id=i) *)
Definition operand77 (i : Z) : operand_program := MkOperand (lit "t")
  [SColumns [vs "name"] []; SFrom [vs "t"] []; SWhere [] [(lit "id", VInt i)]]
  [MkAsked [(vs "name", VNone)] [] []; MkAsked [] [] []; MkAsked [] [inl (vs "id", VInt i)] []].
(** (t1 | t1) & t2, and t1 & (t1 | t2), which is read as (t1 & t1) | t2. *)
Definition union77 : uexpr operand_program := UOp UAll (UOp UUnion (ULeaf (operand77 1)) (ULeaf (operand77 1))) (ULeaf (operand77 2)).
Definition misread77 : uexpr operand_program := UOp UAll (ULeaf (operand77 1)) (UOp UUnion (ULeaf (operand77 1)) (ULeaf (operand77 2))).
Example C77_ok : forall i, operand_ok (demo BSql) BMySql 1 (operand77 i).
Proof.
  intros i. split; [split; [cbn; intuition discriminate|vm_compute; discriminate]|]. split; [|split; [right; now left|split; [repeat constructor|split]]].
  - constructor; [|constructor; [|constructor; [|constructor]]]; cbn [op_table select_call ab_columns ab_where ab_order].
    + split; [no_dict|]. split; [|split; [|split; reflexivity]].
      * apply (aa_items _ [(vs "name", VNone)] [] []); [intros j H; discriminate H| |split; [reflexivity|constructor]].
        constructor; [right; split; [data|reflexivity]|]. constructor.
      * constructor; [|constructor]; (split; [named|left; reflexivity]).
    + repeat split.
    + split; [|split; reflexivity]. apply (wi_pairs _ _ [] [(lit "id", VInt i)] [(vs "id", VInt i)]).
      apply one_where; [split; [cbn; intuition discriminate|vm_compute; discriminate]|exact Logic.I].
  - constructor; [|constructor]. exists (lit "name"). split; [reflexivity|vm_compute; discriminate].
  - exists [(vs "name", VNone)]. split; [|reflexivity]. apply (fo_new [] [] (vs "name", VNone)); [constructor|intros []].
Qed.
Definition query77 (P : operand_program) : selq val := calls sel_step empty_select (program (demo BSql) (map (pair BMySql) (op_calls P))).
Definition both77 (t u : uniont) (a c d : operand_program) : val := VUnion t (VUnion u (VSelect (query77 a)) (VSelect (query77 c))) (VSelect (query77 d)).
Example C77_example : faithful union77 /\ ~ faithful misread77 /\
  text (demo BMySql) (both77 UAll UUnion (operand77 1) (operand77 1) (operand77 2)) =
  Ok (lit "SELECT `name` FROM `t` WHERE `id` = 1 UNION SELECT `name` FROM `t` WHERE `id` = 1 UNION ALL SELECT `name` FROM `t` WHERE `id` = 2") /\
  operandwise (times BMySql demo_server demo_db [LText (lit "a")]) union77 (UOp UAll (UOp UUnion (ULeaf 1%nat) (ULeaf 1%nat)) (ULeaf 0%nat)) /\
  operandwise (times BMySql demo_server demo_db [LNull]) union77 (UOp UAll (UOp UUnion (ULeaf 0%nat) (ULeaf 0%nat)) (ULeaf 1%nat)).
Proof.
  split; [split; [|constructor]; intros ops t Q; destruct ops; discriminate|]. split; [intros [_ F]; inversion F; discriminate|].
  split; [vm_compute; reflexivity|].
  split; repeat constructor; exists [(vs "name", VNone)]; (split; [apply (fo_new [] [] (vs "name", VNone)); [constructor|intros []]|vm_compute; reflexivity]).
Qed.
(** t1 & (t1 | t2): the row of t1 is wanted twice, but returned once. *)
Example C77_misread : operandwise (times BMySql demo_server demo_db [LText (lit "a")]) misread77 (UOp UAll (ULeaf 1%nat) (UOp UUnion (ULeaf 1%nat) (ULeaf 0%nat))) /\
  denoted (UOp UAll (ULeaf 1%nat) (UOp UUnion (ULeaf 1%nat) (ULeaf 0%nat))) = 2%nat /\
  read_sql (UOp UAll (ULeaf 1%nat) (UOp UUnion (ULeaf 1%nat) (ULeaf 0%nat))) = 1%nat.
Proof.
  split; [|split; reflexivity].
  repeat constructor; exists [(vs "name", VNone)]; (split; [apply (fo_new [] [] (vs "name", VNone)); [constructor|intros []]|vm_compute; reflexivity]).
Qed.
