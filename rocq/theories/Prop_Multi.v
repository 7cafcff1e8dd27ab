(** Delete and update programs over several tables, from the arguments of the calls to the rows: C90, C91.
    Specification: SpecMulti.v, SpecJoin.v, SpecProgram.v, SpecArgs.v, SpecSql.v. *)
From Verif Require Import Base NumFmt Value Backend Eq Render ParseArgs Build Queries History Demo
  SpecLex SpecRef SpecLogic SpecHistory SpecArgs SpecErrors SpecWhole SpecSql SpecServer SpecProgram SpecJoin SpecMulti PfMulti Prop_Server Prop_Program Prop_Join.
From Verif Require SpecLists.
Open Scope N_scope.

(** C90.  Calls of delete, from_, from_table, join, left_join, right_join, on, where, allow_delete_all, forbid_delete_all, ignore;
    no two tables are known by one name and the tables given to delete are among them. *)
Theorem C90_delete_join : forall E b H given srcs,
  Forall2 (fun bo g => delete_join_call b (snd bo) g) H given ->
  tables_asked (flat_map ad_from given) = Some srcs -> NoDup (flat_map names_of srcs) -> srcs <> [] ->
  let targets := map (fun p => segments (fst p)) (flat_map ad_targets given) in
  targets <> [] -> (forall p, In p targets -> In p (flat_map names_of srcs)) ->
  flat_map ad_where given <> [] \/ delete_confirmed (map snd H) ->
  let h := program E H in
  let q := calls del_step empty_delete h in
  all_succeed del_step empty_delete h /\
  exists s st, text (with_be E b) (VDelete q) = Ok s /\ understood (dialect_of b) s = Some st /\
    forall sv find db, mirrored sv -> exists db', multi_delete sv find st db = Some db' /\
      forall t, db' t = map snd (filter (fun x => negb (removed (map (tree_asked b sv find) srcs)
        (asked_rows b sv find db srcs (flat_map ad_where given)) targets t (fst x))) (indexed (db t))).
Proof. intros E b. exact (delete_join_program b E). Qed.
Print Assumptions C90_delete_join.

(** C91.  Calls of update, join, left_join, right_join, on, set, where, allow_update_all, forbid_update_all, ignore;
    no two tables are known by one name, and no value of a column comes back after another one (C33). *)
Theorem C91_update_join : forall E b H given srcs,
  Forall2 (fun bo g => update_join_call b (snd bo) g) H given ->
  tables_asked (flat_map au_from given) = Some srcs -> NoDup (flat_map names_of srcs) -> srcs <> [] ->
  let sets := flat_map au_sets given in let pairs := flat_map au_where given in
  sets <> [] -> pairs <> [] \/ update_confirmed (map snd H) ->
  let h := program E H in
  let q := calls upd_step empty_update h in
  all_succeed upd_step empty_update h /\
  exists s st, text (with_be E b) (VUpdate q) = Ok s /\ understood (dialect_of b) s = Some st /\
    forall sv find own db, mirrored sv -> (forall n, none_returns (for_table own n (stores b sets))) ->
      exists db', multi_update sv find own st db = Some db' /\
      forall t, Forall2 (fun x new => forall c, new c =
          match last_for c (row_assigned own (asked_names b sv find srcs) (asked_rows b sv find db srcs pairs) (stores b sets) t (fst x)) with
          | Some l => l | None => snd x c end) (indexed (db t)) (db' t).
Proof. intros E b. exact (update_join_program b E). Qed.
Print Assumptions C91_update_join.

(** ** Examples.  Tables of C74: users 1 to 3; orders of users 2 and 3, a large one only of user 3, and one of nobody. *)
(** delete('o').from_(('user', 'u')).left_join(('order', 'o')).on('u.id', 'o.user').where('o.total', LT(5)) *)
Definition calls90 : list (backend * delop) :=
  [(BMySql, DDelete [vs "o"]); (BMySql, DFrom [VSeq KTuple [vs "user"; vs "u"]] []); (BMySql, DJoin J3Left (VSeq KTuple [vs "order"; vs "o"]));
   (BMySql, DOn [vs "u.id"; vs "o.user"] []); (BMySql, DWhere [vs "o.total"; VRel RLt (VInt 5)] [])].
Definition given90 : list asks_delete :=
  [MkAD [(vs "o", VNone)] [] []; MkAD [] [PTables [(vs "user", vs "u")]] []; MkAD [] [PJoin LeftJoin (vs "order") (vs "o")] [];
   MkAD [] [POn [(vs "u.id", vs "o.user")]] []; MkAD [] [] [(vs "o.total", VRel RLt (VInt 5))]].
Definition srcs90 : list asked_table := [MkAT (vs "user") (vs "u") [MkAJ LeftJoin (vs "order") (vs "o") [(vs "u.id", vs "o.user")]]].
Example C90_ok : Forall2 (fun bo g => delete_join_call BMySql (snd bo) g) calls90 given90 /\
  tables_asked (flat_map ad_from given90) = Some srcs90 /\ NoDup (flat_map names_of srcs90) /\ srcs90 <> [] /\
  let targets := map (fun p => segments (fst p)) (flat_map ad_targets given90) in
  targets <> [] /\ (forall p, In p targets -> In p (flat_map names_of srcs90)) /\ flat_map ad_where given90 <> [].
Proof.
  split; [|split; [reflexivity|split; [|split; [discriminate|split; [discriminate|split; [|discriminate]]]]]].
  - constructor; [|constructor; [|constructor; [|constructor; [|constructor; [|constructor]]]]]; cbn [snd].
    + apply dc_delete; [no_dict| |].
      * apply (aa_items _ [(vs "o", VNone)] [] []); [one_item| |split; [reflexivity|constructor]]. constructor; [right; split; [data|reflexivity]|constructor].
      * constructor; [|constructor]. split; [named|reflexivity].
    + apply dc_from; [no_dict| |].
      * apply (aa_items _ [(vs "user", vs "u")] [] []); [one_item|tuple_item|split; [reflexivity|constructor]].
      * constructor; [|constructor]. split; [named|right; named].
    + apply (dc_join _ J3Left); [|split; [named|right; named]]. apply SpecLists.ja_pair. right. reflexivity.
    + apply dc_on; [no_dict|has_data|two_args|]. constructor; [|constructor]. split; [named|]. cbn. split; [cbn; intuition discriminate|vm_compute; discriminate].
    + apply dc_where. split; [no_dict|]. split; [has_data|]. split; [two_args|]. constructor; [|constructor]. split; [named|exact Logic.I].
  - vm_compute. repeat constructor; cbn; intuition discriminate.
  - intros p [<-|[]]. vm_compute. auto.
Qed.
Definition delete90 : delq val := calls del_step empty_delete (program (demo BMySql) calls90).
Definition after90 (s : str) (t : string) (cols : list string) : option (list (list literal)) :=
  match understood (dialect_of BMySql) s with
  | Some st => option_map (fun db => map (fun r : row => map (fun c => r (lit c)) cols) (db [lit t])) (multi_delete demo_server find74 st db74)
  | None => None
  end.
Example C90_example : let s := lit "DELETE `o` FROM `user` AS `u` LEFT JOIN `order` AS `o` ON `u`.`id` = `o`.`user` WHERE `o`.`total` < 5" in
  text (demo BMySql) (VDelete delete90) = Ok s /\
  after90 s "user" ["id"%string] = Some [[LInt 1]; [LInt 2]; [LInt 3]] /\
  after90 s "order" ["user"%string; "total"%string] = Some [[LInt 3; LInt 9]; [LNull; LInt 7]].
Proof. vm_compute. auto. Qed.
(** Rows of both tables. *)
Example C90_both : let s := lit "DELETE `a`, `o` FROM `user` AS `a` JOIN `order` AS `o` ON `a`.`id` = `o`.`user` WHERE `o`.`total` > 5" in
  after90 s "user" ["id"%string] = Some [[LInt 1]; [LInt 2]] /\
  after90 s "order" ["user"%string; "total"%string] = Some [[LInt 2; LInt 4]; [LNull; LInt 7]].
Proof. vm_compute. auto. Qed.
(** Without delete(...) the text is not a statement a server accepts. *)
Example C90_no_target : after90 (lit "DELETE FROM `user` AS `a` JOIN `order` AS `o` ON `a`.`id` = `o`.`user`") "user" [] = None.
Proof. vm_compute. reflexivity. Qed.

(** update(('user', 'u')).join(('order', 'o')).on('u.id', 'o.user').set([('u.name', 'x'), ('o.total', 0)]).where('o.total', GT(5)) *)
Definition calls91 : list (backend * updop) :=
  [(BMySql, UTable (VSeq KTuple [vs "user"; vs "u"])); (BMySql, UJoin J3Inner (VSeq KTuple [vs "order"; vs "o"]));
   (BMySql, UOn [vs "u.id"; vs "o.user"] []); (BMySql, USet [vs "u.name"; vs "x"] []); (BMySql, USet [vs "o.total"; VInt 0] []);
   (BMySql, UWhere [vs "o.total"; VRel RGt (VInt 5)] [])].
Definition given91 : list asks_update :=
  [MkAU [PTables [(vs "user", vs "u")]] [] []; MkAU [PJoin InnerJoin (vs "order") (vs "o")] [] [];
   MkAU [POn [(vs "u.id", vs "o.user")]] [] []; MkAU [] [(vs "u.name", vs "x")] []; MkAU [] [(vs "o.total", VInt 0)] [];
   MkAU [] [] [(vs "o.total", VRel RGt (VInt 5))]].
Definition srcs91 : list asked_table := [MkAT (vs "user") (vs "u") [MkAJ InnerJoin (vs "order") (vs "o") [(vs "u.id", vs "o.user")]]].
Definition own91 (p : path) : path := removelast p.
Example C91_ok : Forall2 (fun bo g => update_join_call BMySql (snd bo) g) calls91 given91 /\
  tables_asked (flat_map au_from given91) = Some srcs91 /\ NoDup (flat_map names_of srcs91) /\ srcs91 <> [] /\
  flat_map au_sets given91 <> [] /\ flat_map au_where given91 <> [] /\
  forall n, none_returns (for_table own91 n (stores BMySql (flat_map au_sets given91))).
Proof.
  split; [|split; [reflexivity|split; [|split; [discriminate|split; [discriminate|split; [discriminate|]]]]]].
  - constructor; [|constructor; [|constructor; [|constructor; [|constructor; [|constructor; [|constructor]]]]]]; cbn [snd].
    + apply uc_table; [no_dict| |].
      * apply (aa_items _ [(vs "user", vs "u")] [] []); [one_item|tuple_item|split; [reflexivity|constructor]].
      * constructor; [|constructor]. split; [named|right; named].
    + apply (uc_join _ J3Inner); [|split; [named|right; named]]. apply SpecLists.ja_pair. right. reflexivity.
    + apply uc_on; [no_dict|has_data|two_args|]. constructor; [|constructor]. split; [named|]. cbn. split; [cbn; intuition discriminate|vm_compute; discriminate].
    + apply uc_set; [no_dict|has_data|two_args|]. constructor; [|constructor]. split; [named|]. left. cbn [snd datum vs]. fits.
    + apply uc_set; [no_dict|has_data|two_args|]. constructor; [|constructor]. split; [named|]. left. exact Logic.I.
    + apply uc_where. split; [no_dict|]. split; [has_data|]. split; [two_args|]. constructor; [|constructor]. split; [named|exact Logic.I].
  - vm_compute. repeat constructor; cbn; intuition discriminate.
  - intros n. apply apart_never.
    change (for_table own91 n (stores BMySql (flat_map au_sets given91))) with
      ((if path_eqb [lit "u"] n then [(lit "name", LText (lit "x"))] else []) ++ (if path_eqb [lit "o"] n then [(lit "total", LInt 0)] else []) ++ []).
    destruct (path_eqb [lit "u"] n), (path_eqb [lit "o"] n); repeat constructor; cbn; intuition discriminate.
Qed.
Definition update91 : updq val := calls upd_step empty_update (program (demo BMySql) calls91).
Definition after91 (s : str) (t : string) (cols : list string) : option (list (list literal)) :=
  match understood (dialect_of BMySql) s with
  | Some st => option_map (fun db => map (fun r : row => map (fun c => r (lit c)) cols) (db [lit t])) (multi_update demo_server find74 own91 st db74)
  | None => None
  end.
Example C91_example : let s := lit "UPDATE `user` AS `u` JOIN `order` AS `o` ON `u`.`id` = `o`.`user` SET `u`.`name` = 'x', `o`.`total` = 0 WHERE `o`.`total` > 5" in
  text (demo BMySql) (VUpdate update91) = Ok s /\
  after91 s "user" ["id"%string; "name"%string] = Some [[LInt 1; LText (lit "a")]; [LInt 2; LText (lit "b")]; [LInt 3; LText (lit "x")]] /\
  after91 s "order" ["user"%string; "total"%string] = Some [[LInt 2; LInt 4]; [LInt 3; LInt 0]; [LNull; LInt 7]].
Proof. vm_compute. auto. Qed.
