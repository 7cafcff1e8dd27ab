(** Every exception of a builder call: C44.  Specification: SpecRaise.v. *)
From Verif Require Import Base NumFmt Value Backend Eq Render ParseArgs Build Queries History Demo
  SpecArgs SpecHistory SpecErrors SpecSame SpecRaise PfRaise.
Open Scope N_scope.

(** In a program with any arguments whatever, a call that fails raises InvalidArgumentException
    or InvalidQueryException; or one of the exceptions of [sel_irregular] etc., for the reason
    given there; or what str() raises of an SQL object in the arguments of the program. *)
Theorem C44_causes : forall E, (forall v, e_pystr E v <> None) -> forall b,
  (forall H op q' e, let args := flat_map sel_args (map snd H ++ [op]) in
     sel_step (pure_world (with_be E b)) (calls sel_step empty_select (program E H)) op = (q', Err e) ->
     invalid e \/ sel_irregular (with_be E b) op e \/ some_object_raises (with_be E b) args e) /\
  (forall H op q' e, let args := flat_map upd_args (map snd H ++ [op]) in
     upd_step (pure_world (with_be E b)) (calls upd_step empty_update (program E H)) op = (q', Err e) ->
     invalid e \/ upd_irregular (with_be E b) op e \/ some_object_raises (with_be E b) args e) /\
  (forall H op q' e, let args := flat_map del_args (map snd H ++ [op]) in
     del_step (pure_world (with_be E b)) (calls del_step empty_delete (program E H)) op = (q', Err e) ->
     invalid e \/ del_irregular (with_be E b) op e \/ some_object_raises (with_be E b) args e) /\
  (forall H op q' e, let args := flat_map ins_args (map snd H ++ [op]) in
     ins_step (pure_world (with_be E b)) (calls ins_step empty_insert (program E H)) op = (q', Err e) ->
     invalid e \/ ins_irregular (with_be E b) op e \/ some_object_raises (with_be E b) args e).
Proof. exact all_causes. Qed.
Print Assumptions C44_causes.

Definition printing : env := MkEnv BSql (fun _ => Some (lit "?")) (fun c => [c]) (fun c => [c]) (fun _ => true).
(** where(C('x')).where('a', delete_from('t')): comparing the conditions prints the delete, which is not confirmed. *)
Example C44_causes_example_object :
  let d := VDelete (calls del_step empty_delete [(pure_world printing, DFrom [vs "t"] [])]) in
  let H := [(BSql, SWhere [VCustom (lit "x")] [])] in
  let op := SWhere [vs "a"; d] [] in
  let args := flat_map sel_args (map snd H ++ [op]) in
  snd (sel_step (pure_world printing) (calls sel_step empty_select (program printing H)) op) = Err EConfirmDelete /\
  some_object_raises printing args EConfirmDelete.
Proof.
  cbv zeta. split; [vm_compute; reflexivity|].
  eexists. eexists. split; [right; right; left; reflexivity|]. split; [constructor|]. split; vm_compute; reflexivity.
Qed.
(** order_by({'a': 1}), where({'a': 1, 1: 2}), limit(5, C('x')), join(5). *)
Example C44_causes_example_irregular :
  let ord := SOrderBy [VDict [(vs "a", VInt 1)]] [] in
  let wh := SWhere [VDict [(vs "a", VInt 1); (VInt 1, VInt 2)]] [] in
  let lim := SLimit (VInt 5) (VCustom (lit "x")) in
  snd (sel_step (pure_world printing) empty_select ord) = Err EAttributeError /\ sel_irregular printing ord EAttributeError /\
  snd (sel_step (pure_world printing) empty_select wh) = Err ETypeError /\ sel_irregular printing wh ETypeError /\
  snd (sel_step (pure_world printing) empty_select lim) = Err ETypeError /\ sel_irregular printing lim ETypeError /\
  snd (ins_step (pure_world (with_be printing BSqlite)) empty_insert (IOnDup [] [(lit "a", VInt 1)])) = Err EException /\
  ins_irregular (with_be printing BSqlite) (IOnDup [] [(lit "a", VInt 1)]) EException.
Proof.
  cbv zeta. split; [vm_compute; reflexivity|]. split.
  { right. split; [reflexivity|]. exists (VInt 1). split; [right; eauto|]. right; left. eexists. exists (vs "a"). split; [reflexivity|now left]. }
  split; [vm_compute; reflexivity|]. split.
  { eexists. split; [reflexivity|]. left. split; [reflexivity|]. split; [exists (vs "a"); split; [left; reflexivity|left; eexists; reflexivity]|]. exists (VInt 1). split; [right; left; reflexivity|left; eauto]. }
  split; [vm_compute; reflexivity|]. split; [split; [reflexivity|right; reflexivity]|]. split; [vm_compute; reflexivity|].
  split; [reflexivity|]. right. discriminate.
Qed.
