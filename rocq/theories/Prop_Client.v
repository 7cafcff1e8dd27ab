(** Everything the library makes can be printed and compared: C79.  Specification: SpecClient.v, SpecErrors.v. *)
From Verif Require Import Base NumFmt Value Backend Eq Render ParseArgs Build Queries History Demo
  SpecArgs SpecHistory SpecErrors SpecFails SpecClient PfClient.
Open Scope N_scope.

(** C79.  An object made by any use of the library's functions, nested in any way, made under any
    backends, prints under every backend ... *)
Theorem C79_prints : forall E, (forall v, e_pystr E v <> None) -> forall v b, client E v -> exists t, text (with_be E b) v = Ok t.
Proof. exact client_prints. Qed.
Print Assumptions C79_prints.
(** ... and can be compared with every other. *)
Theorem C79_compares : forall E, (forall v, e_pystr E v <> None) -> forall u v b, client E u -> client E v -> exists r, py_eq (with_be E b) u v = Ok r.
Proof. exact client_compares. Qed.
Print Assumptions C79_compares.
(** Statements with such objects as arguments render, up to the confirmations. *)
Theorem C79_statements : forall E, (forall v, e_pystr E v <> None) -> forall b,
  (forall H, Forall (upd_given (client E)) (map snd H) -> let q := VUpdate (calls upd_step empty_update (program E H)) in
     (exists t, text (with_be E b) q = Ok t) \/ text (with_be E b) q = Err EConfirmUpdate) /\
  (forall H, Forall (del_given (client E)) (map snd H) -> let q := VDelete (calls del_step empty_delete (program E H)) in
     (exists t, text (with_be E b) q = Ok t) \/ text (with_be E b) q = Err EConfirmDelete) /\
  (forall H, Forall (ins_given (client E)) (map snd H) -> Forall named_columns (map snd H) ->
     exists t, text (with_be E b) (VInsert (calls ins_step empty_insert (program E H))) = Ok t).
Proof. exact clients_render. Qed.
Print Assumptions C79_statements.
(** And the calls with them, other than those of C44_library_exceptions_refuted, raise only
    InvalidArgumentException or InvalidQueryException. *)
Theorem C79_exceptions : forall E, (forall v, e_pystr E v <> None) -> forall b,
  (forall H op q' e, Forall (sel_given (client E)) (map snd H) -> sel_given (client E) op -> regular_sel (with_be E b) op ->
     sel_step (pure_world (with_be E b)) (calls sel_step empty_select (program E H)) op = (q', Err e) -> invalid e) /\
  (forall H op q' e, Forall (upd_given (client E)) (map snd H) -> upd_given (client E) op -> regular_upd (with_be E b) op ->
     upd_step (pure_world (with_be E b)) (calls upd_step empty_update (program E H)) op = (q', Err e) -> invalid e) /\
  (forall H op q' e, Forall (del_given (client E)) (map snd H) -> del_given (client E) op -> regular_del (with_be E b) op ->
     del_step (pure_world (with_be E b)) (calls del_step empty_delete (program E H)) op = (q', Err e) -> invalid e) /\
  (forall H op q' e, Forall (ins_given (client E)) (map snd H) -> ins_given (client E) op -> regular_ins (with_be E b) op ->
     ins_step (pure_world (with_be E b)) (calls ins_step empty_insert (program E H)) op = (q', Err e) -> invalid e).
Proof. exact clients_raise. Qed.
Print Assumptions C79_exceptions.

(** select(count('x')).from_('t').where(Q(a=GT(V(3))) | Q(b=[1, None])).where(exists(select().from_('u') | select().from_('v'))) *)
Example C79_example :
  let E := MkEnv BSql (fun _ => Some (lit "?")) (fun c => [c]) (fun c => [c]) (fun _ => true) in
  let from s := VSelect (calls sel_step empty_select (program E [(BPostgres, SFrom [VStr s] [])])) in
  let either := VCoC OpOr (VConds [VCond KWhere (vs "a") RGt (VSqlV (VInt 3))]) (VConds [VCond KWhere (vs "b") RIn (VSeq KList [VInt 1; VNone])]) in
  let v := VSelect (calls sel_step empty_select (program E [(BSql, SColumns [mk_agg FCount (vs "x")] []); (BMySql, SFrom [vs "t"] []);
             (BSql, SWhere [either] []); (BSql, SWhere [VExists (VUnion UUnion (from (lit "u")) (from (lit "v")))] [])])) in
  (forall v, e_pystr E v <> None) /\ client E v /\
  text E v = Ok (lit "SELECT COUNT(""x"") FROM ""t"" WHERE (""a"" > 3 OR (""b"" IN (1) OR ""b"" IS NULL)) AND EXISTS(SELECT * FROM ""u"" UNION SELECT * FROM ""v"")").
Proof.
  cbv zeta. split; [discriminate|]. split; [|vm_compute; reflexivity].
  set (E := MkEnv _ _ _ _ _).
  assert (S : forall s, client E (VStr s)) by (intros; apply cl_data; [reflexivity|exact Logic.I]).
  assert (I : forall z, client E (VInt z)) by (intros; apply cl_data; [reflexivity|exact Logic.I]).
  assert (N : client E VNone) by (apply cl_data; [reflexivity|exact Logic.I]).
  assert (F : forall b s, client E (VSelect (calls sel_step empty_select (program E [(b, SFrom [VStr s] [])])))).
  { intros b s. apply cl_select. intros b' op [Q|[]] y J. injection Q as <- <-. destruct J as [<-|[]]. apply S. }
  apply cl_select. intros b op [Q|[Q|[Q|[Q|[]]]]] y J; injection Q as <- <-; destruct J as [<-|[]].
  - apply cl_agg. exact (S _).
  - exact (S _).
  - apply (cl_op _ OpOr (VConds [VCond KWhere (vs "a") RGt (VSqlV (VInt 3))]) (VConds [VCond KWhere (vs "b") RIn (VSeq KList [VInt 1; VNone])])); [| |reflexivity].
    + apply (cl_Q _ BSql [] [(lit "a", VRel RGt (VSqlV (VInt 3)))]); [|vm_compute; reflexivity]. intros y [<-|[]].
      apply (cl_relation _ RGt (VSqlV (VInt 3))); [apply cl_V, I|reflexivity|discriminate].
    + apply (cl_Q _ BSql [] [(lit "b", VSeq KTuple [VInt 1; VNone])]); [|vm_compute; reflexivity]. intros y [<-|[]].
      apply cl_list; [discriminate|]. intros x [<-|[<-|[]]]; [apply I|exact N].
  - apply cl_exists. apply (cl_op _ OpOr _ _ _ (F BPostgres (lit "u")) (F BPostgres (lit "v"))). reflexivity.
Qed.
