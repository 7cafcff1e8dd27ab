(** Select programs with aggregate functions, group_by and having, from the arguments of the
    calls to the rows: C76.  Specification: SpecGroup.v, SpecJoin.v, SpecProgram.v, SpecArgs.v, SpecSql.v. *)
From Coq Require Import Permutation Sorted.
From Verif Require Import Base NumFmt Value Backend Eq Render ParseArgs Build Queries History Demo
  SpecLex SpecRef SpecLogic SpecHistory SpecArgs SpecErrors SpecWhole SpecSql SpecServer SpecProgram SpecJoin SpecGroup PfGroup Prop_Server Prop_Program Prop_Join.
From Verif Require SpecLists.
Open Scope N_scope.

(** C76.  select(...) with calls of columns and order_by with columns and aggregate functions, from_,
    from_table, the joins, on, where, group_by, having, limit, offset, for_update; no two tables are
    known by one name, no alias is the name of a column of group_by. *)
Theorem C76_group : forall E b H given srcs,
  Forall2 (fun bo g => group_call b (supper E) (fst bo) (snd bo) g) H given ->
  tables_asked (flat_map (fun g => as_from (ag_join g)) given) = Some srcs -> NoDup (flat_map names_of srcs) ->
  bounded (wanted_limit (map snd H)) -> bounded (wanted_offset (map snd H)) ->
  (forall c a k v, In (c, VStr a) (flat_map (fun g => as_columns (ag_join g)) given) -> In (VStr k, v) (flat_map ag_group given) ->
     name_segments a <> name_segments k) ->
  let h := program E H in
  let q := calls sel_step empty_select h in
  all_succeed sel_step empty_select h /\
  exists s st cols order, text (with_be E b) (VSelect q) = Ok s /\ understood (dialect_of b) s = Some st /\
    first_occurrences (flat_map (fun g => as_columns (ag_join g)) given) cols /\
    SpecLists.ordered_list (supper E) (flat_map (fun g => as_order (ag_join g)) given) order /\
    forall sv find le same total by_alias db out, mirrored sv -> (group_answers sv find le same total by_alias db st out <->
      asked_groups b sv find le same total by_alias db (columns_asked cols) srcs (flat_map (fun g => as_where (ag_join g)) given)
        (flat_map ag_group given) (flat_map ag_having given) order (wanted_limit (map snd H)) (wanted_offset (map snd H)) out).
Proof. intros E b. exact (group_program b E). Qed.
Print Assumptions C76_group.

(** ** Examples *)
(** columns('u.name', (Count('o.total'), 'n')).from_(('user', 'u')).join(('order', 'o')).on('u.id', 'o.user')
    .where('o.total', GT(1)).group_by('u.name').having(Sum('o.total'), GT(5)).order_by(('n', 'desc')) *)
Definition count76 : val := VAgg FCount false (vs "o.total").
Definition sum76 : val := VAgg FSum false (vs "o.total").
Definition calls76 : list (backend * selop) :=
  [(BMySql, SColumns [vs "u.name"; VSeq KTuple [count76; vs "n"]] []);
   (BMySql, SFrom [VSeq KTuple [vs "user"; vs "u"]] []);
   (BMySql, SJoin JInner (VSeq KTuple [vs "order"; vs "o"]));
   (BMySql, SOn [vs "u.id"; vs "o.user"] []);
   (BMySql, SWhere [vs "o.total"; VRel RGt (VInt 1)] []);
   (BMySql, SGroupBy [vs "u.name"] []);
   (BMySql, SHaving [sum76; VRel RGt (VInt 5)] []);
   (BMySql, SOrderBy [VSeq KTuple [vs "n"; vs "desc"]] [])].
Definition given76 : list asks_groups :=
  [MkGroups (MkAsks [(vs "u.name", VNone); (count76, vs "n")] [] [] []) [] [];
   MkGroups (MkAsks [] [PTables [(vs "user", vs "u")]] [] []) [] [];
   MkGroups (MkAsks [] [PJoin InnerJoin (vs "order") (vs "o")] [] []) [] [];
   MkGroups (MkAsks [] [POn [(vs "u.id", vs "o.user")]] [] []) [] [];
   MkGroups (MkAsks [] [] [(vs "o.total", VRel RGt (VInt 1))] []) [] [];
   MkGroups nothing [(vs "u.name", VNone)] [];
   MkGroups nothing [] [(sum76, VRel RGt (VInt 5))];
   MkGroups (MkAsks [] [] [] [(vs "n", vs "desc")]) [] []].
Definition srcs76 : list asked_table :=
  [MkAT (vs "user") (vs "u") [MkAJ InnerJoin (vs "order") (vs "o") [(vs "u.id", vs "o.user")]]].
Example C76_ok : Forall2 (fun bo g => group_call BMySql (supper (demo BMySql)) (fst bo) (snd bo) g) calls76 given76 /\
  tables_asked (flat_map (fun g => as_from (ag_join g)) given76) = Some srcs76 /\ NoDup (flat_map names_of srcs76) /\
  bounded (wanted_limit (map snd calls76)) /\ bounded (wanted_offset (map snd calls76)) /\
  forall c a k v, In (c, VStr a) (flat_map (fun g => as_columns (ag_join g)) given76) -> In (VStr k, v) (flat_map ag_group given76) ->
     name_segments a <> name_segments k.
Proof.
  split; [|split; [reflexivity|split; [|split; [exact Logic.I|split; [exact Logic.I|]]]]].
  - constructor; [|constructor; [|constructor; [|constructor; [|constructor; [|constructor; [|constructor; [|constructor; [|constructor]]]]]]]]; cbn [fst snd].
    + apply gc_columns; [no_dict| |].
      * apply (aa_items _ [(vs "u.name", VNone); (count76, vs "n")] [] []); [one_item| |split; [reflexivity|constructor]].
        constructor; [right; split; [data|reflexivity]|]. tuple_item.
      * constructor; [|constructor; [|constructor]]; (split; [|]); [|left; reflexivity| |right; named].
        -- cbn. unfold simple_name, good_name. cbn. intuition discriminate.
        -- split; [cbn; unfold simple_name, good_name; cbn; intuition discriminate|reflexivity].
    + apply gc_plain; [|reflexivity|reflexivity]. apply jc_from; [no_dict| |].
      * apply (aa_items _ [(vs "user", vs "u")] [] []); [one_item|tuple_item|split; [reflexivity|constructor]].
      * constructor; [|constructor]. split; [named|right; named].
    + apply gc_plain; [|reflexivity|reflexivity].
      apply (jc_join _ _ _ JInner); [|split; [named|right; named]|discriminate]. apply SpecLists.ja_pair. right. reflexivity.
    + apply gc_plain; [|reflexivity|reflexivity].
      apply jc_on; [no_dict|has_data|two_args|]. constructor; [|constructor]. split; [named|]. cbn. split; [cbn; intuition discriminate|vm_compute; discriminate].
    + apply gc_plain; [|reflexivity|reflexivity].
      apply jc_where. split; [no_dict|]. split; [has_data|]. split; [two_args|]. constructor; [|constructor]. split; [named|exact Logic.I].
    + apply gc_group; [no_dict| |].
      * apply (aa_items _ [(vs "u.name", VNone)] [] []); [one_item| |split; [reflexivity|constructor]].
        constructor; [right; split; [data|reflexivity]|constructor].
      * constructor; [|constructor]. split; [named|]. left. split; reflexivity.
    + apply gc_having; [no_dict|two_args|]. constructor; [|constructor].
      split; [|exact Logic.I]. split; [cbn; unfold simple_name, good_name; cbn; intuition discriminate|reflexivity].
    + apply gc_order; [no_dict| |].
      * apply (aa_items _ [(vs "n", vs "desc")] [] []); [one_item|tuple_item|split; [reflexivity|constructor]].
      * constructor; [|constructor]. split; [cbn; unfold simple_name, good_name; cbn; intuition discriminate|].
        exists Desc. right. eexists. split; [reflexivity|]. right. split; [vm_compute|]; reflexivity.
  - vm_compute. repeat constructor; cbn; intuition discriminate.
  - intros c a k v [H|[H|[]]] [H'|[]]; [discriminate H|]. injection H as <- <-. injection H' as <- <-. vm_compute. discriminate.
Qed.
Definition select76 : selq val := calls sel_step empty_select (program (demo BMySql) calls76).
Example C76_example : text (demo BMySql) (VSelect select76) =
  Ok (lit "SELECT `u`.`name`, COUNT(`o`.`total`) AS `n` FROM `user` AS `u` JOIN `order` AS `o` ON `u`.`id` = `o`.`user` WHERE `o`.`total` > 1 GROUP BY `u`.`name` HAVING SUM(`o`.`total`) > 5 ORDER BY `n` DESC").
Proof. vm_compute. reflexivity. Qed.

(** Three orders of user 2, one of them too small, two orders of user 3, a small one of user 1. *)
Definition db76 : database := fun p =>
  if path_eqb p [lit "user"] then [user74 1 "a"; user74 2 "b"; user74 3 "c"]
  else if path_eqb p [lit "order"] then
    [order74 (LInt 2) 4; order74 (LInt 1) 2; order74 (LInt 3) 9; order74 (LInt 2) 1; order74 (LInt 2) 5; order74 (LInt 3) 3; order74 (LInt 2) 7] else [].
Definition same76 (x y : literal) : bool :=
  match x, y with LInt i, LInt j => Z.eqb i j | LText s, LText t => seqb s t | LNull, LNull => true | _, _ => false end.
Definition total76 (f : str) (distinct : bool) (ps : list path) (g : list combination) : literal :=
  let xs := flat_map (fun c => match find74 c (hd [] ps) with LInt i => [i] | _ => [] end) g in
  if seqb f (lit "COUNT") then LInt (Z.of_nat (List.length xs)) else if seqb f (lit "SUM") then LInt (fold_left Z.add xs 0%Z) else LNull.
Definition rows76 : list combination :=
  filter (fun c => where_holds BMySql demo_server (find74 c) [(vs "o.total", VRel RGt (VInt 1))]) (all_rows db76 (map (tree_asked BMySql demo_server find74) srcs76)).
Definition of_user76 (i : Z) (c : combination) : bool := same76 (find74 c [lit "u"; lit "id"]) (LInt i).
Example C76_rows : asked_groups BMySql demo_server find74 lit_le same76 total76 true db76 [(vs "u.name", VNone); (count76, vs "n")] srcs76
  (flat_map (fun g => as_where (ag_join g)) given76) (flat_map ag_group given76) (flat_map ag_having given76) [(vs "n", Desc)] None None
  [[(None, OneCell (LText (lit "b"))); (Some [lit "n"], OneCell (LInt 3))]; [(None, OneCell (LText (lit "c"))); (Some [lit "n"], OneCell (LInt 2))]].
Proof.
  apply (agrp BMySql demo_server find74 lit_le same76 total76 true db76 [(vs "u.name", VNone); (count76, vs "n")] srcs76
    (flat_map (fun g => as_where (ag_join g)) given76) (flat_map ag_group given76) (flat_map ag_having given76) [(vs "n", Desc)] None None
    [filter (of_user76 1) rows76; filter (of_user76 2) rows76; filter (of_user76 3) rows76]
    [filter (of_user76 2) rows76; filter (of_user76 3) rows76]).
  - split; [vm_compute; apply Permutation_refl|]. split.
    + constructor; [|constructor; [|constructor; [|constructor]]]; (split; [vm_compute; discriminate|]); intros c d I J; vm_compute in I, J;
        repeat (destruct I as [I|I]; [subst c|]); try contradiction; repeat (destruct J as [J|J]; [subst d|]); try contradiction; vm_compute; reflexivity.
    + constructor; [|constructor; [|constructor; [|constructor]]]; repeat (apply Forall_cons || apply Forall_nil); intros c d I J; vm_compute in I, J;
        repeat (destruct I as [I|I]; [subst c|]); try contradiction; repeat (destruct J as [J|J]; [subst d|]); try contradiction; vm_compute; reflexivity.
  - vm_compute. apply Permutation_refl.
  - vm_compute. repeat constructor.
Qed.

(** Why names with a parenthesis are left out: a column given as a string and an aggregate with
    the same text count as one column, the aggregate is dropped. *)
Example C76_text_clash :
  text (demo BMySql) (VSelect (calls sel_step empty_select (program (demo BMySql)
    [(BMySql, SColumns [vs "COUNT(*)"; VAgg FCount false (vs "*")] []); (BMySql, SFrom [vs "user"] [])])))
  = Ok (lit "SELECT `COUNT(*)` FROM `user`").
Proof. vm_compute. reflexivity. Qed.
