(** Specification: which except clause catches what, from the documentation strings of
    exceptions.py. *)
From Verif Require Import Base Value Render ParseArgs Build Queries History Names.
Open Scope N_scope.

(** "Base exception. If you want to handle any exception of SQL puzzle in same way, catch this
    one."  "Base confirm exception. If you want to handle any confirm exception (of update or
    delete) in same way, catch this one."  "Specific type of InvalidArgumentException." *)
Definition documented (raised clause : exc_class) : Prop :=
  match clause with
  | XSqlPuzzle => In raised [XSqlPuzzle; XConfirm; XConfirmUpdate; XConfirmDelete; XInvalidArgument; XInvalidQuery]
  | XConfirm => In raised [XConfirm; XConfirmUpdate; XConfirmDelete]
  | XInvalidArgument => In raised [XInvalidArgument; XInvalidQuery]
  | XException => raised <> XBaseException
  | XBaseException => True
  | _ => raised = clause
  end.
(** Every exception of the code reaches the handler of the clause. *)
Definition always_handled {A} (code : res A) (clause : exc_class) : Prop :=
  forall handler, try_except code clause handler = match code with Ok a => Ok a | Err e => handler e end.

(** Objects of the library that are of one class: relations and functions have a class each, and so have conditions of
    WHERE and of ON. *)
Inductive one_class : val -> val -> Prop :=
| oc_custom : forall a b, one_class (VCustom a) (VCustom b)
| oc_value : forall a b, one_class (VSqlV a) (VSqlV b)
| oc_reference : forall a b, one_class (VSqlR a) (VSqlR b)
| oc_relation : forall k a b, one_class (VRel k a) (VRel k b)
| oc_condition : forall k a b c d r s, one_class (VCond k a r b) (VCond k c s d)
| oc_assignment : forall a b c d, one_class (VValue a b) (VValue c d)
| oc_conditions : forall a b, one_class (VConds a) (VConds b)
| oc_combined : forall o a b p c d, one_class (VCoC o a b) (VCoC p c d)
| oc_not : forall a b, one_class (VNot a) (VNot b)
| oc_exists : forall a b, one_class (VExists a) (VExists b)
| oc_function : forall k d e a b, one_class (VAgg k d a) (VAgg k e b)
| oc_concat : forall a b, one_class (VConcat a) (VConcat b)
| oc_group_concat : forall a b c d e f, one_class (VGroupConcat a b c) (VGroupConcat d e f)
| oc_convert : forall a b c d, one_class (VConvert a b) (VConvert c d)
| oc_select : forall a b, one_class (VSelect a) (VSelect b)
| oc_union : forall t a b u c d, one_class (VUnion t a b) (VUnion u c d)
| oc_insert : forall a b, one_class (VInsert a) (VInsert b)
| oc_update : forall a b, one_class (VUpdate a) (VUpdate b)
| oc_delete : forall a b, one_class (VDelete a) (VDelete b).
