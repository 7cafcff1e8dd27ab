(** Why rendering raises: C78.  Specification: SpecFails.v. *)
From Verif Require Import Base NumFmt Value Backend Eq Render ParseArgs Build Queries History Demo
  SpecArgs SpecHistory SpecErrors SpecSame SpecFails PfFails PfRenders.
Open Scope N_scope.

(** C78.  str() of an object raises only for a cause found in it: an empty list as a value, an
    update or delete without a condition, an insert row without a column name, or a value that
    Python cannot print; in any object, at any depth. *)
Theorem C78_only_causes : forall E v e, text E v = Err e -> stops E Possible Itself v e.
Proof. exact text_causes. Qed.
Print Assumptions C78_only_causes.
(** Conversely each cause makes str() raise, except in a join that repeats an earlier one. *)
Theorem C78_causes_raise : forall E w v e, stops E Certain w v e -> exists e', printed E w v = Err e'.
Proof. exact causes_raise. Qed.
Print Assumptions C78_causes_raise.
Theorem C78_kinds : forall E v e, text E v = Err e -> In e [EInvalidArgument; EAttributeError; EConfirmUpdate; EConfirmDelete; EUnmodelled].
Proof. exact (fun E v e H => stop_kinds E Possible Itself v e (text_causes E v e H)). Qed.
Print Assumptions C78_kinds.
(** So every program renders, after any calls (also failed ones) and with any backend: if no
    argument contains an empty list and the SQL objects in the arguments print, then str() of
    the query raises nothing but the two confirmations. *)
Theorem C78_programs_render : forall E, (forall v, e_pystr E v <> None) -> forall b,
  (forall H, Forall (sel_given (sound E)) (map snd H) ->
     exists t, text (with_be E b) (VSelect (calls sel_step empty_select (program E H))) = Ok t) /\
  (forall H, Forall (upd_given (sound E)) (map snd H) -> let q := VUpdate (calls upd_step empty_update (program E H)) in
     (exists t, text (with_be E b) q = Ok t) \/ text (with_be E b) q = Err EConfirmUpdate) /\
  (forall H, Forall (del_given (sound E)) (map snd H) -> let q := VDelete (calls del_step empty_delete (program E H)) in
     (exists t, text (with_be E b) q = Ok t) \/ text (with_be E b) q = Err EConfirmDelete) /\
  (forall H, Forall (ins_given (sound E)) (map snd H) -> Forall named_columns (map snd H) ->
     exists t, text (with_be E b) (VInsert (calls ins_step empty_insert (program E H))) = Ok t).
Proof.
  exact (fun E P b => Logic.conj (fun H => select_renders E P H b) (Logic.conj (fun H => update_renders E P H b)
    (Logic.conj (fun H => delete_renders E P H b) (fun H => insert_renders E P H b)))).
Qed.
Print Assumptions C78_programs_render.

(** select(Exists(select().from_('t').where(a=[]))): the empty list in the inner query. *)
Example C78_example_deep :
  let inner := VSelect (calls sel_step empty_select [(demoW BSql, SFrom [vs "t"] []); (demoW BSql, SWhere [] [(lit "a", VSeq KList [])])]) in
  let v := VSelect (calls sel_step empty_select [(demoW BSql, SFrom [vs "u"] []); (demoW BSql, SWhere [VExists inner] [])]) in
  text (demo BSql) v = Err EInvalidArgument /\ stops (demo BSql) Certain Itself v EInvalidArgument.
Proof.
  cbv zeta. split; [vm_compute; reflexivity|].
  eapply st_part; [vm_compute; right; left; reflexivity|].
  eapply st_part; [vm_compute; left; reflexivity|].
  eapply st_part; [vm_compute; right; left; reflexivity|].
  eapply st_part; [vm_compute; right; left; reflexivity|]. apply st_empty. discriminate.
Qed.
(** An empty list in the condition of a join. *)
Example C78_example_join :
  let v := VSelect (calls sel_step empty_select [(demoW BSql, SFrom [vs "t"] []); (demoW BSql, SJoin JInner (vs "u")); (demoW BSql, SOn [vs "a"; vs "b"] []);
    (demoW BSql, SJoin JLeft (vs "w")); (demoW BSql, SOn [vs "a"; VSeq KList []] [])]) in
  text (demo BSql) v = Err EInvalidArgument /\ stops (demo BSql) Certain Itself v EInvalidArgument.
Proof.
  cbv zeta. split; [vm_compute; reflexivity|].
  eapply (st_join _ _ _ (MkTable (vs "t") VNone [MkJoin JInner (vs "u") VNone [VCond KOn (vs "a") REq (vs "b")];
      MkJoin JLeft (vs "w") VNone [VCond KOn (vs "a") RIn (VSeq KList [])]]) [MkJoin JInner (vs "u") VNone [VCond KOn (vs "a") REq (vs "b")]]).
  - vm_compute. left. reflexivity.
  - reflexivity.
  - intros _ h [<-|[]] [R _]. vm_compute in R. discriminate R.
  - right. left. reflexivity.
  - eapply st_part; [right; left; reflexivity|]. apply st_empty. discriminate.
Qed.
(** A program that meets the hypotheses: a subquery, a list, a join, an order. *)
Definition everything : env := MkEnv BSql (fun _ => Some (lit "?")) (fun c => [c]) (fun c => [c]) (fun _ => true).
Example C78_example_program :
  let sub := VSelect (calls sel_step empty_select [(pure_world everything, SFrom [vs "v"] [])]) in
  let H := [(BSql, SColumns [vs "a"] []); (BSql, SFrom [vs "t"] []); (BMySql, SJoin JLeft (vs "u")); (BMySql, SOn [vs "t.x"; vs "u.y"] []);
            (BSql, SWhere [VExists sub] []); (BSql, SWhere [] [(lit "b", VSeq KTuple [VInt 1; VNone])]); (BSql, SOrderBy [VInt 1; VInt 0] [])] in
  (forall v, e_pystr everything v <> None) /\ Forall (sel_given (sound everything)) (map snd H) /\
  text everything (VSelect (calls sel_step empty_select (program everything H))) =
    Ok (lit "SELECT ""a"" FROM ""t"" LEFT JOIN ""u"" ON ""t"".""x"" = ""u"".""y"" WHERE EXISTS(SELECT * FROM ""v"") AND (""b"" IN (1) OR ""b"" IS NULL) ORDER BY 1, 0").
Proof.
  cbv zeta. split; [discriminate|]. split; [|vm_compute; reflexivity].
  assert (L : forall v, is_sql v = false -> children v = [] -> match v with VSeq _ _ | VDict _ => False | _ => True end -> sound everything v) by exact (sound_leaf everything).
  assert (S : forall s, sound everything (VStr s)) by (intros; apply L; [reflexivity|reflexivity|exact Logic.I]).
  assert (I : forall z, sound everything (VInt z)) by (intros; apply L; [reflexivity|reflexivity|exact Logic.I]).
  assert (N : sound everything VNone) by (apply L; [reflexivity|reflexivity|exact Logic.I]).
  repeat first [apply Forall_cons | apply Forall_nil | progress cbn [map snd sel_given] | match goal with |- args_given _ _ _ => split end]; try exact (S _); try exact (I _).
  - constructor; [|discriminate|discriminate].
    intros _ b. destruct b; eexists; vm_compute; reflexivity.
  - constructor; [discriminate|discriminate|]. intros _ x [<-|[<-|[]]]; auto.
Qed.
