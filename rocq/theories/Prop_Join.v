(** Select programs over several tables, from the arguments of the calls to the rows: C74.
    Specification: SpecJoin.v, SpecProgram.v, SpecArgs.v, SpecSql.v. *)
From Coq Require Import Permutation Sorted.
From Verif Require Import Base NumFmt Value Backend Eq Render ParseArgs Build Queries History Demo
  SpecLex SpecRef SpecLogic SpecHistory SpecArgs SpecErrors SpecWhole SpecSql SpecServer SpecProgram SpecJoin PfJoin Prop_Server Prop_Program.
From Verif Require SpecLists.
Open Scope N_scope.

(** C74.  select(...) with calls of columns, from_, from_table, join, left_join, right_join, full_join, on,
    where, order_by, limit, offset, for_update; no two tables are known by one name. *)
Theorem C74_join : forall E b H given srcs,
  Forall2 (fun bo g => join_call b (supper E) (fst bo) (snd bo) g) H given ->
  tables_asked (flat_map as_from given) = Some srcs -> NoDup (flat_map names_of srcs) ->
  bounded (wanted_limit (map snd H)) -> bounded (wanted_offset (map snd H)) ->
  (forall c a k v, In (c, VStr a) (flat_map as_columns given) -> In (VStr k, v) (flat_map as_order given) -> name_segments a <> name_segments k) ->
  let h := program E H in
  let q := calls sel_step empty_select h in
  all_succeed sel_step empty_select h /\
  exists s st cols order, text (with_be E b) (VSelect q) = Ok s /\ understood (dialect_of b) s = Some st /\
    first_occurrences (flat_map as_columns given) cols /\ SpecLists.ordered_list (supper E) (flat_map as_order given) order /\
    forall sv find le db out, mirrored sv -> (join_answers sv find le db st out <->
      asked_answers b sv find le db (columns_asked cols) srcs (flat_map as_where given) order
        (wanted_limit (map snd H)) (wanted_offset (map snd H)) out).
Proof. intros E b. exact (join_program b E). Qed.
Print Assumptions C74_join.

(** ** Examples *)
(** columns('u.name', ('o.total', 't')).from_(('user', 'u')).left_join(('order', 'o')).on('u.id', 'o.user')
    .where('u.id', GE(2)).on('o.total', GT(5)).order_by(('u.name', 'desc')) *)
Definition calls74 : list (backend * selop) :=
  [(BMySql, SColumns [vs "u.name"; VSeq KTuple [vs "o.total"; vs "t"]] []);
   (BMySql, SFrom [VSeq KTuple [vs "user"; vs "u"]] []);
   (BMySql, SJoin JLeft (VSeq KTuple [vs "order"; vs "o"]));
   (BMySql, SOn [vs "u.id"; vs "o.user"] []);
   (BMySql, SWhere [vs "u.id"; VRel RGe (VInt 2)] []);
   (BMySql, SOn [vs "o.total"; VRel RGt (VInt 5)] []);
   (BMySql, SOrderBy [VSeq KTuple [vs "u.name"; vs "desc"]] [])].
Definition given74 : list asks :=
  [MkAsks [(vs "u.name", VNone); (vs "o.total", vs "t")] [] [] [];
   MkAsks [] [PTables [(vs "user", vs "u")]] [] [];
   MkAsks [] [PJoin LeftJoin (vs "order") (vs "o")] [] [];
   MkAsks [] [POn [(vs "u.id", vs "o.user")]] [] [];
   MkAsks [] [] [(vs "u.id", VRel RGe (VInt 2))] [];
   MkAsks [] [POn [(vs "o.total", VRel RGt (VInt 5))]] [] [];
   MkAsks [] [] [] [(vs "u.name", vs "desc")]].
Definition srcs74 : list asked_table :=
  [MkAT (vs "user") (vs "u") [MkAJ LeftJoin (vs "order") (vs "o") [(vs "u.id", vs "o.user"); (vs "o.total", VRel RGt (VInt 5))]]].
Ltac one_item := intros i H; discriminate H.
Ltac tuple_item := constructor; [|constructor]; left; eexists; (split; [right; reflexivity|constructor]).
Ltac two_args := apply pa_two; [data|split; [reflexivity|constructor]].
Ltac has_data := right; eexists; split; [now left|reflexivity].
Example C74_ok : Forall2 (fun bo g => join_call BMySql (supper (demo BMySql)) (fst bo) (snd bo) g) calls74 given74 /\
  tables_asked (flat_map as_from given74) = Some srcs74 /\ NoDup (flat_map names_of srcs74) /\
  bounded (wanted_limit (map snd calls74)) /\ bounded (wanted_offset (map snd calls74)) /\
  forall c a k v, In (c, VStr a) (flat_map as_columns given74) -> In (VStr k, v) (flat_map as_order given74) -> name_segments a <> name_segments k.
Proof.
  split; [|split; [reflexivity|split; [|split; [exact Logic.I|split; [exact Logic.I|]]]]].
  - constructor; [|constructor; [|constructor; [|constructor; [|constructor; [|constructor; [|constructor; [|constructor]]]]]]]; cbn [fst snd].
    + apply jc_columns; [no_dict| |].
      * apply (aa_items _ [(vs "u.name", VNone); (vs "o.total", vs "t")] [] []); [one_item| |split; [reflexivity|constructor]].
        constructor; [right; split; [data|reflexivity]|]. tuple_item.
      * constructor; [|constructor; [|constructor]]; (split; [named|]); [left; reflexivity|right; named].
    + apply jc_from; [no_dict| |].
      * apply (aa_items _ [(vs "user", vs "u")] [] []); [one_item|tuple_item|split; [reflexivity|constructor]].
      * constructor; [|constructor]. split; [named|right; named].
    + apply (jc_join _ _ _ JLeft); [|split; [named|right; named]|discriminate]. apply SpecLists.ja_pair. right. reflexivity.
    + apply jc_on; [no_dict|has_data|two_args|]. constructor; [|constructor]. split; [named|]. cbn. split; [cbn; intuition discriminate|vm_compute; discriminate].
    + apply jc_where. split; [no_dict|]. split; [has_data|]. split; [two_args|]. constructor; [|constructor]. split; [named|exact Logic.I].
    + apply jc_on; [no_dict|has_data|two_args|]. constructor; [|constructor]. split; [named|exact Logic.I].
    + apply jc_order; [no_dict| |].
      * apply (aa_items _ [(vs "u.name", vs "desc")] [] []); [one_item|tuple_item|split; [reflexivity|constructor]].
      * constructor; [|constructor]. split; [named|]. exists Desc. right. eexists. split; [reflexivity|]. right. split; [vm_compute|]; reflexivity.
  - vm_compute. repeat constructor; cbn; intuition discriminate.
  - intros c a k v [H|[H|[]]] [H'|[]]; [discriminate H|]. injection H as <- <-. injection H' as <- <-. vm_compute. discriminate.
Qed.
Definition select74 : selq val := calls sel_step empty_select (program (demo BMySql) calls74).
Example C74_example : text (demo BMySql) (VSelect select74) =
  Ok (lit "SELECT `u`.`name`, `o`.`total` AS `t` FROM `user` AS `u` LEFT JOIN `order` AS `o` ON `u`.`id` = `o`.`user` AND `o`.`total` > 5 WHERE `u`.`id` >= 2 ORDER BY `u`.`name` DESC").
Proof. vm_compute. reflexivity. Qed.

(** Users 1 to 3; orders of users 2 and 3, a large one only of user 3, and one of nobody. *)
Definition user74 (i : Z) (n : string) : row := fun c => if seqb c (lit "id") then LInt i else if seqb c (lit "name") then LText (lit n) else LNull.
Definition order74 (u : literal) (t : Z) : row := fun c => if seqb c (lit "user") then u else if seqb c (lit "total") then LInt t else LNull.
Definition db74 : database := fun p =>
  if path_eqb p [lit "user"] then [user74 1 "a"; user74 2 "b"; user74 3 "c"]
  else if path_eqb p [lit "order"] then [order74 (LInt 2) 4; order74 (LInt 3) 9; order74 LNull 7] else [].
Definition find74 (c : combination) (p : path) : literal :=
  match p with
  | [t; x] => match find (fun e => path_eqb (fst e) [t]) c with Some e => snd e x | None => LNull end
  | _ => LNull
  end.
Example C74_mirrored : mirrored demo_server.
Proof. intros x y. cbn [compare demo_server]. rewrite (Bool.andb_comm (lit_le x y)). auto. Qed.
Example C74_rows : asked_answers BMySql demo_server find74 lit_le db74 [(vs "u.name", VNone); (vs "o.total", vs "t")] srcs74
  (flat_map as_where given74) [(vs "u.name", Desc)] None None
  [[(None, OneCell (LText (lit "c"))); (Some [lit "t"], OneCell (LInt 9))]; [(None, OneCell (LText (lit "b"))); (Some [lit "t"], OneCell LNull)]].
Proof.
  apply (aans BMySql demo_server find74 lit_le db74 [(vs "u.name", VNone); (vs "o.total", vs "t")] srcs74 (flat_map as_where given74) [(vs "u.name", Desc)] None None
    (filter (fun c => where_holds BMySql demo_server (find74 c) (flat_map as_where given74)) (all_rows db74 (map (tree_asked BMySql demo_server find74) srcs74)))).
  - apply Permutation_refl.
  - vm_compute. repeat constructor.
Qed.
(** What the four joins of the two tables contain. *)
Definition both74 (k : joinkind) : list (literal * literal) :=
  map (fun c => (find74 c [lit "u"; lit "id"], find74 c [lit "o"; lit "total"]))
    (all_rows db74 [MkTree [lit "user"] [lit "u"] [(k, [lit "order"], [lit "o"], fun c => on_hold BMySql demo_server (find74 c) [(vs "u.id", vs "o.user")])]]).
Example C74_kinds :
  both74 InnerJoin = [(LInt 2, LInt 4); (LInt 3, LInt 9)] /\
  both74 LeftJoin = [(LInt 2, LInt 4); (LInt 3, LInt 9); (LInt 1, LNull)] /\
  both74 RightJoin = [(LInt 2, LInt 4); (LInt 3, LInt 9); (LNull, LInt 7)] /\
  both74 FullJoin = [(LInt 2, LInt 4); (LInt 3, LInt 9); (LInt 1, LNull); (LNull, LInt 7)].
Proof. vm_compute. auto. Qed.
