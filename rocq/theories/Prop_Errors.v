(** Failing calls: C43, C44.  Specification: SpecErrors.v, SpecArgs.v, SpecBackends.v. *)
From Verif Require Import Base NumFmt Value Backend Eq Render ParseArgs Build Queries History Demo
  SpecArgs SpecHistory SpecClauses SpecLists SpecBackends SpecErrors PfArgs PfBackends PfErrors.
From Verif Require PfCarry.
Open Scope N_scope.

(** C43.  order_by('a', ('b', 'bad')) raises and leaves 'a' in the query; limit(5, True)
    raises and leaves the limit; on PostgreSQL on_duplicate_key_update('id', 1) raises
    and leaves the conflict column. *)
Theorem C43_unchanged_refuted :
  (exists q q' op e, sel_step (demoW BSql) q op = (q', Err e) /\ text (demo BSql) (VSelect q) <> text (demo BSql) (VSelect q') /\
     text (demo BSql) (VSelect q') = Ok (lit "SELECT * FROM ""t"" ORDER BY ""a""")) /\
  (exists q q' op e, sel_step (demoW BSql) q op = (q', Err e) /\ text (demo BSql) (VSelect q) <> text (demo BSql) (VSelect q') /\
     text (demo BSql) (VSelect q') = Ok (lit "SELECT * FROM ""t"" LIMIT 5")) /\
  (exists q q' op e, ins_step (demoW BPostgres) q op = (q', Err e) /\ i_conflict q = None /\ i_conflict q' = Some (lit "id")).
Proof.
  split; [|split].
  - exists (calls sel_step empty_select [(demoW BSql, SFrom [vs "t"] [])]),
      (calls sel_step empty_select [(demoW BSql, SFrom [vs "t"] []); (demoW BSql, SOrderBy [vs "a"] [])]),
      (SOrderBy [vs "a"; VSeq KTuple [vs "b"; vs "bad"]] []), EInvalidArgument.
    split; [vm_compute; reflexivity|]. split; [vm_compute; discriminate|vm_compute; reflexivity].
  - exists (calls sel_step empty_select [(demoW BSql, SFrom [vs "t"] [])]),
      (calls sel_step empty_select [(demoW BSql, SFrom [vs "t"] []); (demoW BSql, SLimit (VInt 5) VNone)]),
      (SLimit (VInt 5) (VBool true)), EInvalidArgument.
    split; [vm_compute; reflexivity|]. split; [vm_compute; discriminate|vm_compute; reflexivity].
  - exists empty_insert, (MkIns false false [] [] [] (Some (lit "id")) []), (IOnDup [vs "id"; VInt 1] []), EInvalidArgument.
    split; [vm_compute; reflexivity|]. split; reflexivity.
Qed.
Print Assumptions C43_unchanged_refuted.
(** A call with at most one item to add, on any state, in any world. *)
Theorem C43_one_item_partial :
  (forall W q op q' e, single_sel op -> sel_step W q op = (q', Err e) -> q' = q) /\
  (forall W q op q' e, single_upd op -> upd_step W q op = (q', Err e) -> q' = q) /\
  (forall W q op q' e, single_del op -> del_step W q op = (q', Err e) -> q' = q) /\
  (forall W q op q' e, single_ins (e_be (w_env W)) op -> ins_step W q op = (q', Err e) -> q' = q).
Proof. exact single_unchanged. Qed.
Print Assumptions C43_one_item_partial.
(** A call with several items either changes nothing, or has the effect of the calls with
    the single items before the first one that fails. *)
Theorem C43_several_items_partial : forall W,
  (forall op q q' e, with_items op -> sel_step W q op = (q', Err e) ->
     q' = q \/ exists pre p post, sel_items op (pre ++ p :: post) /\ sel_run W q (map (sel_alone op) pre) = (q', Ok tt) /\
                                  sel_step W q' (sel_alone op p) = (q', Err e)) /\
  (forall op q q' e, with_items_upd op -> upd_step W q op = (q', Err e) ->
     q' = q \/ exists pre p post, upd_items op (pre ++ p :: post) /\ upd_run W q (map (upd_alone op) pre) = (q', Ok tt) /\
                                  upd_step W q' (upd_alone op p) = (q', Err e)) /\
  (forall op q q' e, with_items_del op -> del_step W q op = (q', Err e) ->
     q' = q \/ exists pre p post, del_items op (pre ++ p :: post) /\ del_run W q (map (del_alone op) pre) = (q', Ok tt) /\
                                  del_step W q' (del_alone op p) = (q', Err e)).
Proof. exact (fun W => conj (sel_items_failing W) (conj (upd_items_failing W) (del_items_failing W))). Qed.
Print Assumptions C43_several_items_partial.
(** into, and on_duplicate_key_update on MySQL and (after its conflict column) on PostgreSQL. *)
Theorem C43_insert_partial : forall W,
  (forall q q' t e, keys_ok (filter truthy [t]) [] -> ins_step W q (IInto t) = (q', Err e) ->
     q' = q \/ exists pre p post, alias_args (filter truthy [t]) [] (pre ++ p :: post) /\ ins_run W q (map into_alone pre) = (q', Ok tt) /\
                                  ins_step W q' (into_alone p) = (q', Err e)) /\
  (forall q q' a k e, e_be (w_env W) = BMySql -> keys_ok a k -> ins_step W q (IOnDup a k) = (q', Err e) ->
     q' = q \/ exists pre p post, pair_args a k (pre ++ p :: post) /\ ins_run W q (map dup_alone pre) = (q', Ok tt) /\
                                  ins_step W q' (dup_alone p) = (q', Err e)) /\
  (forall q q' s a k e, e_be (w_env W) = BPostgres -> keys_ok a k -> ins_step W q (IOnDup (VStr s :: a) k) = (q', Err e) ->
     exists q0, ins_step W q (IOnDup [VStr s] []) = (q0, Ok tt) /\
       (q' = q0 \/ exists pre p post, pair_args a k (pre ++ p :: post) /\ ins_run W q0 (map (conflict_alone s) pre) = (q', Ok tt) /\
                                     ins_step W q' (conflict_alone s p) = (q', Err e))).
Proof. exact (fun W => conj (into_failing W) (conj (dup_failing W) (conflict_failing W))). Qed.
Print Assumptions C43_insert_partial.
(** where(q1, q2, ...) with Q objects only: nothing changes, or it is the call with the ones
    before the first that cannot be compared with the conditions there. *)
Theorem C43_conditions_partial : forall W,
  (forall op a w q q' e, only_Q_sel op a w -> all_Q a -> sel_step W q op = (q', Err e) ->
     q' = q \/ exists pre x post, a = pre ++ x :: post /\ (q' = q \/ sel_step W q (w pre) = (q', Ok tt)) /\ sel_step W q' (w [x; x]) = (q', Err e)) /\
  (forall op a w q q' e, only_Q_upd op a w -> all_Q a -> upd_step W q op = (q', Err e) ->
     q' = q \/ exists pre x post, a = pre ++ x :: post /\ (q' = q \/ upd_step W q (w pre) = (q', Ok tt)) /\ upd_step W q' (w [x; x]) = (q', Err e)) /\
  (forall op a w q q' e, only_Q_del op a w -> all_Q a -> del_step W q op = (q', Err e) ->
     q' = q \/ exists pre x post, a = pre ++ x :: post /\ (q' = q \/ del_step W q (w pre) = (q', Ok tt)) /\ del_step W q' (w [x; x]) = (q', Err e)).
Proof. exact (fun W => conj (sel_Q_failing W) (conj (upd_Q_failing W) (del_Q_failing W))). Qed.
Print Assumptions C43_conditions_partial.
(** limit(l, o) that fails changes nothing or is limit(l) before offset(o) fails. *)
Theorem C43_limit_partial : forall W q q' l o e, sel_step W q (SLimit l o) = (q', Err e) ->
  q' = q \/ (sel_step W q (SLimit l VNone) = (q', Ok tt) /\ sel_step W q' (SOffset o) = (q', Err e)).
Proof. exact limit_failing. Qed.
Print Assumptions C43_limit_partial.
Example C43_example_one : let q := calls sel_step empty_select [(demoW BSql, SFrom [vs "t"] []); (demoW BSql, SWhere [vs "a"; VInt 1] [])] in
  single_sel (SWhere [VInt 1; VInt 2] []) /\ sel_step (demoW BSql) q (SWhere [VInt 1; VInt 2] []) = (q, Err EInvalidArgument) /\
  single_ins BSqlite (IOnDup [] [(lit "a", VInt 1)]) /\ ins_step (demoW BSqlite) empty_insert (IOnDup [] [(lit "a", VInt 1)]) = (empty_insert, Err EException).
Proof.
  cbv zeta. split; [apply op_pair; [intros l [G|G]; discriminate G|now left]|]. split; [vm_compute; reflexivity|]. split; [exact I|vm_compute; reflexivity].
Qed.
Example C43_example_several :
  let op := SWhere [VDict [(vs "b", VOther 3); (vs "a", VInt 1)]] [] in
  with_items op /\ sel_step (demoW BSql) empty_select op =
    (calls sel_step empty_select [(demoW BSql, SWhere [vs "a"; VInt 1] [])], Err EInvalidArgument).
Proof.
  cbv zeta. split; [|vm_compute; reflexivity]. split; [|right; eexists; split; [left; reflexivity|reflexivity]].
  split; [constructor|]. intros items H. injection H as <-. split.
  - repeat constructor; cbn; intuition discriminate.
  - left. intros k [<-|[<-|[]]]; eexists; reflexivity.
Qed.

(** where(C('x')).where(Q(C('a')), Q(a=[]) | Q(b=2)) adds the first: the second is printed to compare it. *)
Example C43_example_conditions :
  let q := calls sel_step empty_select [(demoW BSql, SWhere [VCustom (lit "x")] [])] in
  let q1 := VConds [VCustom (lit "a")] in
  let q2 := VCoC OpOr (VConds [VCond KWhere (vs "a") RIn (VSeq KList [])]) (VConds [VCond KWhere (vs "b") REq (VInt 2)]) in
  let op := SWhere [q1; q2] [] in
  only_Q_sel op [q1; q2] (fun l => SWhere l []) /\ all_Q [q1; q2] /\
  sel_step (demoW BSql) q op = (calls sel_step q [(demoW BSql, SWhere [q1] [])], Err EInvalidArgument) /\ sel_step (demoW BSql) q op <> (q, Err EInvalidArgument).
Proof.
  cbv zeta. split; [left; eexists; split; reflexivity|]. split; [split; [discriminate|repeat constructor]|].
  split; [vm_compute; reflexivity|]. vm_compute. discriminate.
Qed.
(** On MySQL on_duplicate_key_update({'a': 1, 'b': object()}) leaves a = 1; on PostgreSQL
    on_duplicate_key_update('id', {'a': 1, 'b': object()}) also leaves the conflict column. *)
Example C43_example_insert :
  let d := VDict [(vs "b", VOther 3); (vs "a", VInt 1)] in
  keys_ok [d] [] /\
  ins_step (demoW BMySql) empty_insert (IOnDup [d] []) = (calls ins_step empty_insert [(demoW BMySql, IOnDup [] [(lit "a", VInt 1)])], Err EInvalidArgument) /\
  ins_step (demoW BPostgres) empty_insert (IOnDup [vs "id"; d] []) =
    (calls ins_step empty_insert [(demoW BPostgres, IOnDup [vs "id"] [(lit "a", VInt 1)])], Err EInvalidArgument).
Proof.
  cbv zeta. split; [|split; vm_compute; reflexivity]. split; [constructor|]. intros items H. injection H as <-. split.
  - repeat constructor; cbn; intuition discriminate.
  - left. intros k [<-|[<-|[]]]; eexists; reflexivity.
Qed.

(** C44.  Errors that are not the library's: order_by(('a', 1)), limit(C('5')),
    where({'a': 1, 1: 2}), on_duplicate_key_update(n=2) on SQLite. *)
Theorem C44_library_exceptions_refuted :
  sel_step (demoW BSql) empty_select (SOrderBy [VSeq KTuple [vs "a"; VInt 1]] []) = (empty_select, Err EAttributeError) /\
  sel_step (demoW BSql) empty_select (SLimit (VCustom (lit "5")) VNone) = (empty_select, Err ETypeError) /\
  sel_step (demoW BSql) empty_select (SWhere [VDict [(vs "a", VInt 1); (VInt 1, VInt 2)]] []) = (empty_select, Err ETypeError) /\
  ins_step (demoW BSqlite) empty_insert (IOnDup [] [(lit "n", VInt 2)]) = (empty_insert, Err EException).
Proof. split; [|split; [|split]]; vm_compute; reflexivity. Qed.
Print Assumptions C44_library_exceptions_refuted.
(** In a program whose calls are given data and SQL objects that are not compared by their
    text, the other calls that fail raise InvalidArgumentException or InvalidQueryException. *)
Theorem C44_library_exceptions_partial : forall E b,
  (forall H op q' e, Forall data_sel (map snd H) -> data_sel op -> regular_sel (with_be E b) op ->
     sel_step (pure_world (with_be E b)) (calls sel_step empty_select (program E H)) op = (q', Err e) -> invalid e) /\
  (forall H op q' e, Forall textless_upd (map snd H) -> textless_upd op -> regular_upd (with_be E b) op ->
     upd_step (pure_world (with_be E b)) (calls upd_step empty_update (program E H)) op = (q', Err e) -> invalid e) /\
  (forall H op q' e, Forall textless_del (map snd H) -> textless_del op -> regular_del (with_be E b) op ->
     del_step (pure_world (with_be E b)) (calls del_step empty_delete (program E H)) op = (q', Err e) -> invalid e) /\
  (forall H op q' e, Forall data_ins (map snd H) -> data_ins op -> regular_ins (with_be E b) op ->
     ins_step (pure_world (with_be E b)) (calls ins_step empty_insert (program E H)) op = (q', Err e) -> invalid e).
Proof. exact library_exceptions. Qed.
Print Assumptions C44_library_exceptions_partial.
Example C44_example :
  let q := calls sel_step empty_select (program (demo BSql) [(BSql, SFrom [vs "t"] []); (BSql, SOrderBy [vs "a"] [])]) in
  let op := SOrderBy [VSeq KTuple [vs "b"; vs "upward"]] [] in
  data_sel op /\ regular_sel (demo BSql) op /\ sel_step (demoW BSql) q op = (q, Err EInvalidArgument) /\
  sel_step (demoW BSql) q (SJoin JInner (VInt 1)) = (q, Err EInvalidArgument) /\ printable (demo BSql) (VInt 1) /\
  sel_step (demoW BSql) q (SOn [vs "a"; vs "b"] []) = (q, Err EInvalidQuery).
Proof.
  cbv zeta. split; [split; [|constructor]; constructor; [|constructor]; apply tl_seq; constructor; [apply tl_str|constructor; [apply tl_str|constructor]]|].
  split; [|split; [vm_compute; reflexivity|split; [vm_compute; reflexivity|split; [exists (lit "1"); vm_compute; reflexivity|vm_compute; reflexivity]]]].
  split; [split; [constructor|discriminate]|]. intros ps p A J.
  destruct (alias_contract (demoW BSql) [VSeq KTuple [vs "b"; vs "upward"]] []) as [[ps' [A' P]]|[P _]]; [split; [constructor|discriminate]| |discriminate P].
  pose proof (proj1 (alias_contract_iff (demoW BSql) [VSeq KTuple [vs "b"; vs "upward"]] [] ltac:(split; [constructor|discriminate])) ps) as C.
  apply C in A. vm_compute in A. destruct ps as [|[x y] [|]]; try discriminate. injection A as <- <-. destruct J as [<-|[]]. cbn. split; [reflexivity|discriminate].
Qed.
(** The same in a program with any SQL objects that print ([tame]): C, V, functions, queries.
    Comparing them prints them; Python can print every value that is not the library's. *)
Theorem C44_objects_partial : forall E, (forall v, e_pystr E v <> None) -> forall b,
  (forall H op q' e, Forall (sel_given (tame E)) (map snd H) -> sel_given (tame E) op -> regular_sel (with_be E b) op ->
     sel_step (pure_world (with_be E b)) (calls sel_step empty_select (program E H)) op = (q', Err e) -> invalid e) /\
  (forall H op q' e, Forall (upd_given (tame E)) (map snd H) -> upd_given (tame E) op -> regular_upd (with_be E b) op ->
     upd_step (pure_world (with_be E b)) (calls upd_step empty_update (program E H)) op = (q', Err e) -> invalid e) /\
  (forall H op q' e, Forall (del_given (tame E)) (map snd H) -> del_given (tame E) op -> regular_del (with_be E b) op ->
     del_step (pure_world (with_be E b)) (calls del_step empty_delete (program E H)) op = (q', Err e) -> invalid e) /\
  (forall H op q' e, Forall (ins_given (tame E)) (map snd H) -> ins_given (tame E) op -> regular_ins (with_be E b) op ->
     ins_step (pure_world (with_be E b)) (calls ins_step empty_insert (program E H)) op = (q', Err e) -> invalid e).
Proof. exact PfCarry.object_exceptions. Qed.
Print Assumptions C44_objects_partial.
(** where(C('x')) and then where(a=[]): the comparison prints the condition, which has no text. *)
Example C44_objects_example :
  let E := MkEnv BSql (fun _ => Some (lit "?")) (fun c => [c]) (fun c => [c]) (fun _ => true) in
  let q := calls sel_step empty_select (program E [(BSql, SWhere [VCustom (lit "x")] [])]) in
  let op := SWhere [] [(lit "a", VSeq KList [])] in
  (forall v, e_pystr E v <> None) /\ sel_given (tame E) (SWhere [VCustom (lit "x")] []) /\ sel_given (tame E) op /\ regular_sel E op /\
  sel_step (pure_world E) empty_select op = (calls sel_step empty_select (program E [(BSql, op)]), Ok tt) /\
  sel_step (pure_world E) q op = (q, Err EInvalidArgument).
Proof.
  cbv zeta. split; [discriminate|]. split; [|split; [|split; [|split; vm_compute; reflexivity]]].
  - split; [|constructor]. constructor; [|constructor]. constructor; [|discriminate]. intros _ b. left. exists (lit "x"). reflexivity.
  - split; [constructor|]. constructor; [|constructor]. constructor; [discriminate|]. intros _ x [].
  - split; [constructor; [intros []|constructor]|discriminate].
Qed.
