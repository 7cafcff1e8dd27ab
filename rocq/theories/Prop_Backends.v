(** Properties that depend on the backend or on unions: C40, C41, C42, C48.
    Specifications: SpecBackends.v, SpecArgs.v, SpecLists.v. *)
From Verif Require Import Base NumFmt Value Backend Eq Render ParseArgs Build Queries History Demo
  SpecArgs SpecHistory SpecClauses SpecLists SpecBackends PfUnion PfBackends.
Open Scope N_scope.

(** C40.  Only PostgreSQL has FULL JOIN. *)
Theorem C40_full_join : forall W q arg,
  (e_be (w_env W) <> BPostgres -> sel_step W q (SJoin JFull arg) = (q, Err EInvalidQuery)) /\
  (e_be (w_env W) = BPostgres -> forall ts n a js n' a', s_tabs q = ts ++ [MkTable n a js] -> join_arg arg n' a' -> table_ok_ n' a' ->
     exists q', sel_step W q (SJoin JFull arg) = (q', Ok tt) /\ sel_but_tables q q' /\
       s_tabs q' = ts ++ [MkTable n a (js ++ [MkJoin JFull n' a' []])]).
Proof. exact full_join_backends. Qed.
Print Assumptions C40_full_join.
(** on_duplicate_key_update is ignored silently under the default backend. *)
Theorem C40_never_ignored_refuted : exists q a k,
  ins_step (demoW BSql) q (IOnDup a k) = (q, Ok tt) /\ k <> [] /\
  text (demo BSql) (VInsert q) = Ok (lit "INSERT INTO ""t"" (""id"") VALUES (1)").
Proof.
  exists (calls ins_step empty_insert [(demoW BSql, IInto (vs "t")); (demoW BSql, IValues [] [(lit "id", VInt 1)])]), [], [(lit "n", VInt 2)].
  split; [vm_compute; reflexivity|]. split; [discriminate|vm_compute; reflexivity].
Qed.
Print Assumptions C40_never_ignored_refuted.
(** The clause of PostgreSQL lacks its SET: ON CONFLICT (c) DO UPDATE SET c = v. *)
Theorem C40_conflict_syntax_refuted : exists H, (forall wo, In wo H -> fst wo = demoW BPostgres) /\
  text (demo BPostgres) (VInsert (calls ins_step empty_insert H)) =
  Ok (lit "INSERT INTO ""t"" (""id"") VALUES (1) ON CONFLICT (""id"") DO UPDATE ""n"" = 2").
Proof.
  exists [(demoW BPostgres, IInto (vs "t")); (demoW BPostgres, IValues [] [(lit "id", VInt 1)]);
          (demoW BPostgres, IOnDup [vs "id"] [(lit "n", VInt 2)])].
  split; [|vm_compute; reflexivity]. intros wo [<-|[<-|[<-|[]]]]; reflexivity.
Qed.
Print Assumptions C40_conflict_syntax_refuted.
(** What it does on the three other backends.  The assignments are those set() of UPDATE
    would make, see C33; where they are shown, see C54. *)
Theorem C40_on_duplicate_partial : forall W q a k,
  (e_be (w_env W) = BMySql -> exists vals o, upd_step W (set_list (i_dup q)) (USet a k) = (set_list vals, o) /\
     ins_step W q (IOnDup a k) = (with_dup q vals, o)) /\
  (e_be (w_env W) = BPostgres -> forall c rest, a = VStr c :: rest ->
     exists vals o, upd_step W (set_list (i_upd q)) (USet rest k) = (set_list vals, o) /\
       ins_step W q (IOnDup a k) = (with_conflict q (Some c) vals, o)) /\
  (e_be (w_env W) = BPostgres -> (forall c rest, a <> VStr c :: rest) -> ins_step W q (IOnDup a k) = (q, Err EInvalidQuery)) /\
  (e_be (w_env W) = BSqlite -> a = [] /\ k = [] -> ins_step W q (IOnDup a k) = (replacing q, Ok tt)) /\
  (e_be (w_env W) = BSqlite -> a <> [] \/ k <> [] -> ins_step W q (IOnDup a k) = (q, Err EException)).
Proof. exact on_dup_backends. Qed.
Print Assumptions C40_on_duplicate_partial.
Theorem C40_on_duplicate_history : forall H, (forall wo, In wo H -> e_be (w_env (fst wo)) = BMySql) ->
  i_dup (calls ins_step empty_insert H) = u_vals (calls upd_step empty_update (flat_map as_set H)) /\
  i_upd (calls ins_step empty_insert H) = [] /\ i_replace (calls ins_step empty_insert H) = false.
Proof. exact on_dup_history. Qed.
Print Assumptions C40_on_duplicate_history.
Example C40_example_full_join : text (demo BPostgres) (VSelect (calls sel_step empty_select
  [(demoW BPostgres, SFrom [vs "t"] []); (demoW BPostgres, SJoin JFull (vs "u")); (demoW BSqlite, SJoin JFull (vs "v"))]))
  = Ok (lit "SELECT * FROM ""t"" FULL JOIN ""u""").
Proof. vm_compute. reflexivity. Qed.
Example C40_example_dup : i_dup (calls ins_step empty_insert
  [(demoW BMySql, IInto (vs "t")); (demoW BMySql, IOnDup [] [(lit "b", VInt 2); (lit "a", VInt 1)]); (demoW BMySql, IOnDup [vs "c"; VNone] [])])
  = [VValue (vs "a") (VInt 1); VValue (vs "b") (VInt 2); VValue (vs "c") VNone].
Proof. vm_compute. reflexivity. Qed.
Example C40_example_sqlite : text (demo BSqlite) (VInsert (calls ins_step empty_insert
  [(demoW BSqlite, IInto (vs "t")); (demoW BSqlite, IValues [] [(lit "id", VInt 1)]); (demoW BSqlite, IOnDup [] [])]))
  = Ok (lit "REPLACE INTO ""t"" (""id"") VALUES (1)").
Proof. vm_compute. reflexivity. Qed.

(** C41. *)
Theorem C41_one_call : forall E cur v, lower_ok E ->
  (forall b, names v b -> set_backend E cur v = (b, Ok tt)) /\
  ((forall b, ~ names v b) -> exists e, set_backend E cur v = (cur, Err e)).
Proof. exact configure_one. Qed.
Print Assumptions C41_one_call.
Theorem C41_unambiguous : forall v b b', names v b -> names v b' -> b = b'.
Proof. exact names_unique. Qed.
Print Assumptions C41_unambiguous.
Theorem C41_history : forall E l cur, lower_ok E ->
  (forall pre v b post, l = pre ++ v :: post -> names v b -> (forall w b', In w post -> ~ names w b') -> configured E cur l = b) /\
  ((forall w b', In w l -> ~ names w b') -> configured E cur l = cur).
Proof. exact configure_history. Qed.
Print Assumptions C41_history.
Lemma C41_names : names (vs "PostgreSQL") BPostgres.
Proof.
  eexists. split; [reflexivity|].
  repeat (constructor; [first [left; reflexivity|right; split; [reflexivity|split; discriminate]]|]). constructor.
Qed.
Example C41_example : lower_ok (demo BSql) /\ names (vs "PostgreSQL") BPostgres /\
  configured (demo BSql) BSql [vs "MySQL"; vs "PostgreSQL"; vs "oracle"; VInt 3; vs ""] = BPostgres.
Proof.
  split; [|split; [exact C41_names|vm_compute; reflexivity]].
  intros c L. exists c. split; [now left|]. intros b I.
  destruct b; vm_compute in I; repeat (destruct I as [<-|I]; [destruct L; reflexivity|]); destruct I.
Qed.

(** C42.  The text is the texts of the operands with the operators between them ... *)
Theorem C42_text : forall E e v, built e v -> forall t, text E v = Ok t <->
  exists ts, Forall2 (fun q s => text E (VSelect q) = Ok s) (operands e) ts /\ t = alternated (operators e) ts.
Proof. exact union_text. Qed.
Print Assumptions C42_text.
(** ... so a & (b | c) is read as (a & b) | c: *)
Definition C42_select (n : string) : selq val := calls sel_step empty_select [(demoW BSql, SFrom [vs n] [])].
Theorem C42_structure_refuted : exists v v' l r,
  let a := C42_select "a" in let b := C42_select "b" in let c := C42_select "c" in
  l = UOp UAll (ULeaf a) (UOp UUnion (ULeaf b) (ULeaf c)) /\ built l v /\
  r = UOp UUnion (UOp UAll (ULeaf a) (ULeaf b)) (ULeaf c) /\ built r v' /\
  text (demo BSql) v = text (demo BSql) v' /\
  text (demo BSql) v = Ok (lit "SELECT * FROM ""a"" UNION ALL SELECT * FROM ""b"" UNION SELECT * FROM ""c""") /\
  (* a row that is once in each: twice or once in the result *)
  denoted (UOp UAll (ULeaf 1%nat) (UOp UUnion (ULeaf 1%nat) (ULeaf 1%nat))) = 2%nat /\
  denoted (UOp UUnion (UOp UAll (ULeaf 1%nat) (ULeaf 1%nat)) (ULeaf 1%nat)) = 1%nat.
Proof.
  exists (VUnion UAll (VSelect (C42_select "a")) (VUnion UUnion (VSelect (C42_select "b")) (VSelect (C42_select "c")))),
         (VUnion UUnion (VUnion UAll (VSelect (C42_select "a")) (VSelect (C42_select "b"))) (VSelect (C42_select "c"))).
  do 2 eexists. cbv zeta. split; [reflexivity|]. split.
  { eapply bu_and; [apply bu_leaf|eapply bu_or; [apply bu_leaf|apply bu_leaf|reflexivity]|reflexivity]. }
  split; [reflexivity|]. split.
  { eapply bu_or; [eapply bu_and; [apply bu_leaf|apply bu_leaf|reflexivity]|apply bu_leaf|reflexivity]. }
  split; [vm_compute; reflexivity|]. split; [vm_compute; reflexivity|]. split; reflexivity.
Qed.
Print Assumptions C42_structure_refuted.
(** ... and exactly the expressions [faithful] are read as they are meant, whatever the
    rows of the operands.  (Operands with ORDER BY or LIMIT are out of scope.) *)
Theorem C42_faithful_partial : forall A (e : uexpr A), faithful e <-> forall c, same_shape c e -> denoted c = read_sql c.
Proof. exact union_exact. Qed.
Print Assumptions C42_faithful_partial.
Example C42_example : faithful (UOp UAll (UOp UUnion (ULeaf tt) (UOp UUnion (ULeaf tt) (ULeaf tt))) (UOp UAll (ULeaf tt) (ULeaf tt))) /\
  ~ faithful (UOp UUnion (ULeaf tt) (UOp UAll (ULeaf tt) (ULeaf tt))).
Proof.
  split.
  - cbn [faithful operators app]. split; [|repeat constructor]. intros ops t Q. destruct ops as [|x [|y ops]]; try discriminate. now injection Q as <-.
  - intros F. discriminate (F [] UAll eq_refl).
Qed.

(** C48. *)
Theorem C48_built_alike : forall E,
  (forall H H', map snd H = map snd H' -> Forall textless_sel (map snd H) ->
     calls sel_step empty_select (program E H) = calls sel_step empty_select (program E H')) /\
  (forall H H', map snd H = map snd H' -> Forall textless_ins (map snd H) ->
     calls ins_step empty_insert (program E H) = calls ins_step empty_insert (program E H')) /\
  (forall H H', map snd H = map snd H' -> Forall textless_upd (map snd H) ->
     calls upd_step empty_update (program E H) = calls upd_step empty_update (program E H')) /\
  (forall H H', map snd H = map snd H' -> Forall textless_del (map snd H) ->
     calls del_step empty_delete (program E H) = calls del_step empty_delete (program E H')).
Proof. exact built_alike. Qed.
Print Assumptions C48_built_alike.
(** C objects are compared by their texts when they are added, so for them it is false:
    C('a') and C('"a"') are the same column for the default backend, not for MySQL. *)
Theorem C48_not_for_objects : exists H H', map snd H = map snd H' /\
  text (demo BSql) (VSelect (calls sel_step empty_select (program (demo BSql) H))) <>
  text (demo BSql) (VSelect (calls sel_step empty_select (program (demo BSql) H'))).
Proof.
  exists [(BSql, SColumns [VSqlR (vs "a")] []); (BSql, SColumns [VSqlR (vs """a""")] [])],
         [(BSql, SColumns [VSqlR (vs "a")] []); (BMySql, SColumns [VSqlR (vs """a""")] [])].
  split; [reflexivity|]. vm_compute. discriminate.
Qed.
Print Assumptions C48_not_for_objects.
Definition C48_history (b b' : backend) : list (backend * selop) :=
  [(b, SFrom [vs "t"] []); (b', SColumns [vs "a"; VSeq KTuple [vs "b"; vs "x"]] []); (b, SJoin JLeft (vs "u"));
   (b', SWhere [VDict [(vs "n", VInt 1); (vs "m", VRel RGt (VInt 2))]] []); (b, SOrderBy [vs "a"] [(lit "b", vs "desc")]); (b', SLimit (VInt 3) VNone)].
Lemma C48_leaf : forall v, match v with VStr _ | VInt _ | VNone => True | _ => False end -> textless v.
Proof. intros v L. apply textless_leaf; destruct v; destruct L; reflexivity. Qed.
Example C48_example : Forall textless_sel (map snd (C48_history BSql BMySql)) /\
  text (demo BMySql) (VSelect (calls sel_step empty_select (program (demo BSql) (C48_history BSqlite BPostgres))))
  = Ok (lit "SELECT `a`, `b` AS `x` FROM `t` LEFT JOIN `u` WHERE `m` > 2 AND `n` = 1 ORDER BY `a`, `b` DESC LIMIT 3").
Proof.
  split; [|vm_compute; reflexivity]. pose proof (fun s => C48_leaf (VStr s) Logic.I) as Ls.
  pose proof (fun s => C48_leaf (VInt s) Logic.I) as Li. pose proof (C48_leaf VNone Logic.I) as Ln.
  assert (Lt : textless (VSeq KTuple [vs "b"; vs "x"])) by (apply tl_seq; constructor; [apply Ls|constructor; [apply Ls|constructor]]).
  assert (Ld : textless (VDict [(vs "n", VInt 1); (vs "m", VRel RGt (VInt 2))])).
  { constructor; [reflexivity| |].
    - intros items Q. injection Q as <-. constructor; [reflexivity|constructor; [reflexivity|constructor]].
    - intros x I. cbn in I. destruct I as [<-|[<-|[<-|[<-|[]]]]]; [apply Ls|apply Li|apply Ls|].
      constructor; [reflexivity|discriminate|]. intros y [<-|[]]. apply Li. }
  cbn [map snd C48_history]. repeat apply Forall_cons; try apply Forall_nil; cbn [textless_sel];
    try (split; repeat first [apply Forall_cons|apply Forall_nil]; try exact Ld; try exact Lt; try apply Ls; try exact Ln; try apply Li; cbn [snd]; try apply Ls).
  discriminate.
Qed.
