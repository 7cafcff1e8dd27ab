(** C85: the operands of & and |. *)
From Verif Require Import Base NumFmt Value Eq Render ParseArgs Build Queries History Demo SpecLogic SpecConds SpecRelations SpecOperands PfOperands.
Open Scope N_scope.

(** Exactly the expressions that fit are accepted, the others raise TypeError or
    InvalidArgumentException. *)
Theorem C85_operands : forall e, ((exists v, evaluated e = Ok v) <-> fits e) /\
  (~ fits e -> evaluated e = Err ETypeError \/ evaluated e = Err EInvalidArgument).
Proof. exact operands_all. Qed.
Print Assumptions C85_operands.

(** An expression of conditions is a condition and says what the expression says. *)
Theorem C85_conditions : forall e v t, Forall a_condition (objects e) -> evaluated e = Ok v ->
  a_condition v /\ meaning t v = says_expr t e.
Proof. exact conditions_mean. Qed.
Print Assumptions C85_conditions.

(** In full: | and & of a select take selects and unions only.  False: any SQL object is
    taken, so the text need not be SQL. *)
Definition sel85 : selq val := calls sel_step empty_select [(demoW BSql, SColumns [vs "a"] []); (demoW BSql, SFrom [vs "t"] [])].
Definition q85 : val := VConds [VCond KWhere (vs "b") REq (VInt 1)].
Theorem C85_unions_of_selects_refuted : exists v, evaluated (POp OpOr (PObj (VSelect sel85)) (PObj q85)) = Ok v /\ ~ a_select q85 /\
  text (demo BSql) v = Ok (lit "SELECT ""a"" FROM ""t"" UNION ""b"" = 1").
Proof. eexists. split; [vm_compute; reflexivity|]. split; [intros [(q & E)|(t & a & b & E)]; discriminate|vm_compute; reflexivity]. Qed.
Print Assumptions C85_unions_of_selects_refuted.

Example C85_example : fits (POp OpAnd (PObj q85) (POp OpOr (PObj q85) (PObj q85))) /\ evaluated (POp OpAnd (PObj q85) (PObj (VInt 1))) = Err ETypeError /\
  evaluated (POp OpAnd (PObj q85) (PObj (VNot [q85]))) = Err ETypeError /\ evaluated (POp OpOr (PObj (VSelect sel85)) (PObj (vs "SELECT 1"))) = Err EInvalidArgument /\
  ~ fits (POp OpAnd (PObj q85) (PObj (VInt 1))).
Proof.
  split; [|split; [reflexivity|split; [reflexivity|split; [reflexivity|]]]].
  - apply fi_conditions; repeat (constructor; [right; left; eexists; reflexivity|]); constructor.
  - intros F. apply operands_fit in F. destruct F as [v F]. discriminate.
Qed.
