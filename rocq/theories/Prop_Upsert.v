(** Insert programs with on_duplicate_key_update on tables with unique keys: C75.
    Specification: SpecUpsert.v, SpecProgram.v, SpecNested.v. *)
From Verif Require Import Base NumFmt Value Backend Eq Render ParseArgs Build Queries History Demo
  SpecLex SpecRef SpecLogic SpecHistory SpecArgs SpecErrors SpecWhole SpecSql SpecServer SpecNested SpecProgram SpecUpsert PfUpsert Prop_Server Prop_Program.
Open Scope N_scope.

(** C75.  insert_into(t) followed by calls of values, on_duplicate_key_update, ignore. *)
Theorem C75_upsert : forall E b sv keys old b0 t H given, good_name (quote_of b) t ->
  Forall2 (fun bo g => upsert_call b (fst bo) (snd bo) g) H given ->
  let rows := flat_map in_rows given in let upd := flat_map in_update given in
  List.concat rows <> [] -> none_returns (stores b upd) ->
  let h := program E ((b0, IInto (VStr t)) :: H) in
  let q := calls ins_step empty_insert h in
  all_succeed ins_step empty_insert h /\
  exists s st out, text (with_be E b) (VInsert q) = Ok s /\ read_statement (dialect_of b) s = Some st /\
    inserts sv keys st (name_segments t) old out /\
    same_table out (insert_all sv keys (replaces b (map snd H)) (ignores (map snd H)) (given_update b upd) old (map (given_row b) rows)).
Proof. intros E b. exact (upsert_program b E). Qed.
Print Assumptions C75_upsert.

(** ** Examples: the table t(id, name) with the unique key id. *)
Definition seen (x : option (list row)) : option (list (literal * literal)) :=
  option_map (map (fun r : row => (r (lit "id"), r (lit "name")))) x.
Definition old75 : list row := [row_of 1 (LText (lit "a")); row_of 2 (LText (lit "b"))].

(** values(id=1, name='x').values(id=3, name='y').on_duplicate_key_update(name='z') *)
Definition calls75 : list (backend * insop) :=
  [(BSql, IValues [] [(lit "id", VInt 1); (lit "name", vs "x")]); (BSql, IValues [] [(lit "id", VInt 3); (lit "name", vs "y")]);
   (BMySql, IOnDup [] [(lit "name", vs "z")])].
Definition given75 : list inserted :=
  [MkInserted [[(vs "id", VInt 1); (vs "name", vs "x")]] []; MkInserted [[(vs "id", VInt 3); (vs "name", vs "y")]] [];
   MkInserted [] [(vs "name", vs "z")]].
Lemma two_keywords : forall c v d w, sltb c d = true -> pair_args [] [(c, v); (d, w)] [(VStr c, v); (VStr d, w)].
Proof.
  intros c v d w L. apply (pa_items [] [] [(c, v); (d, w)] [(VStr c, v); (VStr d, w)]); [discriminate|intros a b H; discriminate H|constructor|].
  split; [reflexivity|]. constructor; [repeat constructor|]. constructor; [|constructor]. constructor. now apply PfArgs.sltb_before.
Qed.
Lemma no_returns2 : forall (a b : str * literal), fst a <> fst b -> none_returns [a; b].
Proof.
  intros a b N c v pre mid post H w I. destruct pre as [|x [|y pre]]; cbn [app] in H.
  - injection H as -> H. destruct mid as [|m mid]; [destruct I|]. injection H as -> H. destruct mid; discriminate H.
  - injection H as -> -> H. destruct mid; discriminate H.
  - injection H as -> -> H. destruct pre; discriminate H.
Qed.
Lemma no_returns1 : forall (a : str * literal), none_returns [a].
Proof. intros a c v pre mid post H w I. destruct pre as [|x pre]; cbn [app] in H; injection H as -> H; [destruct mid; discriminate H|destruct pre; discriminate H]. Qed.
Ltac two_cells := eexists; split; [reflexivity|]; split;
  [split; [no_dict|]; split; [now left|]; split; [apply two_keywords; reflexivity|];
   constructor; [|constructor; [|constructor]]; (split; [eexists; split; [reflexivity|fits]|]; left; cbn [snd datum vs]; fits)
  |vm_compute; apply no_returns2; discriminate].
Example C75_ok : Forall2 (fun bo g => upsert_call BMySql (fst bo) (snd bo) g) calls75 given75 /\
  List.concat (flat_map in_rows given75) <> [] /\ none_returns (stores BMySql (flat_map in_update given75)).
Proof.
  split; [|split; [discriminate|vm_compute; apply no_returns1]].
  constructor; [|constructor; [|constructor; [|constructor]]]; cbn [fst snd upsert_call].
  - two_cells.
  - two_cells.
  - split; [reflexivity|]. split; [|reflexivity]. split; [no_dict|]. split; [now left|]. split; [apply one_keyword|]. constructor; [|constructor].
    split; [eexists; split; [reflexivity|fits]|]. left. cbn [snd datum vs]. fits.
Qed.
Definition insert75 : insq val := calls ins_step empty_insert (program (demo BSql) ((BSql, IInto (vs "t")) :: calls75)).
Example C75_example : text (demo BMySql) (VInsert insert75) =
    Ok (lit "INSERT INTO `t` (`id`, `name`) VALUES (1, 'x'), (3, 'y') ON DUPLICATE KEY UPDATE `name` = 'z'") /\
  seen (insert_all demo_server [[lit "id"]] (replaces BMySql (map snd calls75)) (ignores (map snd calls75))
         (given_update BMySql (flat_map in_update given75)) old75 (map (given_row BMySql) (flat_map in_rows given75)))
  = Some [(LInt 1, LText (lit "z")); (LInt 2, LText (lit "b")); (LInt 3, LText (lit "y"))].
Proof. split; vm_compute; reflexivity. Qed.

(** The same rows on SQLite: values(...).values(...).on_duplicate_key_update() *)
Definition calls75s : list (backend * insop) :=
  [(BSqlite, IValues [] [(lit "id", VInt 1); (lit "name", vs "x")]); (BSqlite, IOnDup [] []); (BSqlite, IValues [] [(lit "id", VInt 3); (lit "name", vs "y")])].
Definition given75s : list inserted :=
  [MkInserted [[(vs "id", VInt 1); (vs "name", vs "x")]] []; MkInserted [] []; MkInserted [[(vs "id", VInt 3); (vs "name", vs "y")]] []].
Example C75_sqlite_ok : Forall2 (fun bo g => upsert_call BSqlite (fst bo) (snd bo) g) calls75s given75s.
Proof.
  constructor; [|constructor; [|constructor; [|constructor]]]; cbn [fst snd upsert_call]; [two_cells|repeat split|two_cells].
Qed.
Definition insert75s : insq val := calls ins_step empty_insert (program (demo BSql) ((BSql, IInto (vs "t")) :: calls75s)).
Example C75_sqlite : text (demo BSqlite) (VInsert insert75s) =
    Ok (lit "REPLACE INTO ""t"" (""id"", ""name"") VALUES (1, 'x'), (3, 'y')") /\
  seen (insert_all demo_server [[lit "id"]] (replaces BSqlite (map snd calls75s)) (ignores (map snd calls75s))
         (given_update BSqlite (flat_map in_update given75s)) old75 (map (given_row BSqlite) (flat_map in_rows given75s)))
  = Some [(LInt 2, LText (lit "b")); (LInt 1, LText (lit "x")); (LInt 3, LText (lit "y"))].
Proof. split; vm_compute; reflexivity. Qed.
(** Without it the first row is an error. *)
Example C75_error : seen (insert_all demo_server [[lit "id"]] false false None old75 (map (given_row BMySql) (flat_map in_rows given75))) = None /\
  seen (insert_all demo_server [[lit "id"]] false true None old75 (map (given_row BMySql) (flat_map in_rows given75)))
  = Some [(LInt 1, LText (lit "a")); (LInt 2, LText (lit "b")); (LInt 3, LText (lit "y"))].
Proof. split; vm_compute; reflexivity. Qed.
