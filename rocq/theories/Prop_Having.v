(** Select programs with groups whose HAVING is made by Q, Not, & and |, from the arguments of the calls to the rows: C95.
    Specification: SpecHaving.v, SpecGroupAll.v, SpecGroup.v, SpecDistinct.v, SpecProgramQ.v, SpecJoin.v, SpecProgram.v, SpecSql.v. *)
From Coq Require Import Permutation Sorted.
From Verif Require Import Base NumFmt Value Backend Eq Render ParseArgs Build Queries History Demo
  SpecLex SpecRef SpecLogic SpecHistory SpecArgs SpecErrors SpecWhole SpecSql SpecServer SpecProgram SpecProgramQ SpecJoin SpecGroup SpecDistinct SpecGroupAll SpecHaving PfHaving
  Prop_Server Prop_Program Prop_ProgramQ Prop_Join Prop_Group Prop_GroupAll.
From Verif Require SpecLists.
Open Scope N_scope.

(** C95.  Python evaluates sensible expressions about groups without an exception. *)
Theorem C95_evaluates : forall E b e, group_sensible b e -> exists x, evaluate (pure_world (with_be E b)) e = Ok x.
Proof. exact group_expression. Qed.
Print Assumptions C95_evaluates.

(** C95.  If only distinct rows are asked for, they are sorted by columns asked for or their aliases. *)
Theorem C95_having : forall E b H given srcs,
  Forall2 (fun bo g => kept_call E b (fst bo) (snd bo) g) H given ->
  let cols := flat_map (fun g => as_columns (ag_join (fst (fst g)))) given in let order := flat_map (fun g => as_order (ag_join (fst (fst g)))) given in
  let group := flat_map (fun g => ag_group (fst (fst g))) given in
  tables_asked (flat_map (fun g => as_from (ag_join (fst (fst g)))) given) = Some srcs -> NoDup (flat_map names_of srcs) ->
  bounded (wanted_limit (map snd H)) -> bounded (wanted_offset (map snd H)) ->
  (forall c a k v, In (c, VStr a) cols -> In (VStr k, v) group -> name_segments a <> name_segments k) ->
  (distinct_asked (map snd H) = true -> forall k v, In (k, v) order -> exists c a, In (c, a) (columns_asked cols) /\ (c = k \/ a = k)) ->
  let h := program E H in
  let q := calls sel_step empty_select h in
  all_succeed sel_step empty_select h /\
  exists s st cols' order', text (with_be E b) (VSelect q) = Ok s /\ understood (dialect_of b) s = Some st /\
    first_occurrences cols cols' /\ SpecLists.ordered_list (supper E) order order' /\
    forall sv find le same total by_alias db out, mirrored sv -> (grouped_answers sv find le same total by_alias db st out <->
      groups_kept b sv find le same total by_alias db (distinct_asked (map snd H)) (columns_asked cols') srcs
        (fun c => items_hold b sv (find c) (flat_map (fun g => snd (fst g)) given)) group
        (fun value => group_items_hold b sv value (flat_map snd given)) order' (wanted_limit (map snd H)) (wanted_offset (map snd H)) out).
Proof. intros E b. exact (having_program b E). Qed.
Print Assumptions C95_having.

(** ** Examples *)
(** Not(Q(n=3) | Q(Sum('o.total'), LT(5))) *)
Definition neither95 : cexp :=
  XAll true [XBin OpOr (XPairs false [] [(lit "n", VInt 3)] [(vs "n", VInt 3)]) (XPairs false [sum76; VRel RLt (VInt 5)] [] [(sum76, VRel RLt (VInt 5))])].
Example C95_sensible : group_sensible BMySql neither95.
Proof.
  split; [split; [discriminate|now left]|]. split; [|exact Logic.I].
  split; [|split; [|split; reflexivity]]; (split; [|discriminate]); (split; [no_dict|split]).
  - apply one_keyword.
  - constructor; [|constructor]. split; [cbn; unfold simple_name, good_name; cbn; intuition discriminate|cbn; fits].
  - two_args.
  - constructor; [|constructor]. split; [|exact Logic.I]. split; [cbn; unfold simple_name, good_name; cbn; intuition discriminate|reflexivity].
Qed.
Lemma asks95 : having_asks (demo BMySql) BMySql [object71 neither95] [] [inr neither95].
Proof.
  apply (hi_objects _ _ [neither95] [object71 neither95]); [split; [discriminate|now left]|constructor; [exact C95_sensible|constructor]|constructor; [vm_compute; reflexivity|constructor]].
Qed.
(** The calls of C94, then having(Not(...)). *)
Definition calls95 : list (backend * selop) := calls94 ++ [(BMySql, SHaving [object71 neither95] [])].
Definition given95 : list ((asks_groups * list where_item) * list where_item) := map (fun g => (g, [])) given94 ++ [((MkGroups nothing [] [], []), [inr neither95])].
Example C95_ok : Forall2 (fun bo g => kept_call (demo BMySql) BMySql (fst bo) (snd bo) g) calls95 given95 /\
  tables_asked (flat_map (fun g => as_from (ag_join (fst (fst g)))) given95) = Some srcs76 /\ NoDup (flat_map names_of srcs76) /\
  bounded (wanted_limit (map snd calls95)) /\ bounded (wanted_offset (map snd calls95)) /\
  (forall c a k v, In (c, VStr a) (flat_map (fun g => as_columns (ag_join (fst (fst g)))) given95) -> In (VStr k, v) (flat_map (fun g => ag_group (fst (fst g))) given95) ->
     name_segments a <> name_segments k) /\
  distinct_asked (map snd calls95) = true /\
  (forall k v, In (k, v) (flat_map (fun g => as_order (ag_join (fst (fst g)))) given95) ->
     exists c a, In (c, a) (columns_asked (flat_map (fun g => as_columns (ag_join (fst (fst g)))) given95)) /\ (c = k \/ a = k)).
Proof.
  destruct C94_ok as [A [B [C [D [F [G [I J]]]]]]]. split; [|split; [exact B|split; [exact C|split; [exact D|split; [exact F|split; [exact G|split; [exact I|exact J]]]]]]].
  apply Forall2_app; [|constructor; [apply kc_having; [reflexivity|exact asks95]|constructor]]. clear -A.
  assert (N : Forall (fun bo : backend * selop => forall a k, snd bo <> SHaving a k) calls94) by (repeat constructor; discriminate).
  induction A as [|bo g H given P A IH]; [constructor|]. inversion N; subst. cbn [map]. constructor; [now apply kc_other|auto].
Qed.
Definition select95 : selq val := calls sel_step empty_select (program (demo BMySql) calls95).
Example C95_example : text (demo BMySql) (VSelect select95) =
  Ok (lit "SELECT DISTINCT COUNT(`o`.`total`) AS `n` FROM `user` AS `u` JOIN `order` AS `o` ON `u`.`id` = `o`.`user` WHERE (`u`.`name` = 'a' OR `o`.`total` > 3) GROUP BY `u`.`name` HAVING NOT((`n` = 3 OR SUM(`o`.`total`) < 5)) ORDER BY `n` DESC").
Proof. vm_compute. reflexivity. Qed.
(** The order of user 1 is small, user 2 has three: only the one of user 3 is left. *)
Example C95_rows : groups_kept BMySql demo_server find74 lit_le same76 total76 true db76 true [(count76, vs "n")] srcs76
    (fun c => items_hold BMySql demo_server (find74 c) [inr either94]) [(vs "u.name", VNone)]
    (fun value => group_items_hold BMySql demo_server value [inr neither95]) [(vs "n", Desc)] None None
    [[(Some [lit "n"], OneCell (LInt 1))]].
Proof.
  apply (gkept BMySql demo_server find74 lit_le same76 total76 true db76 true [(count76, vs "n")] srcs76
      (fun c => items_hold BMySql demo_server (find74 c) [inr either94]) [(vs "u.name", VNone)]
      (fun value => group_items_hold BMySql demo_server value [inr neither95]) [(vs "n", Desc)] None None
      [filter (of_user76 1) rows94; filter (of_user76 2) rows94; filter (of_user76 3) rows94] [filter (of_user76 3) rows94]); [exact groups94| |].
  - assert (Q : filter (fun g => group_items_hold BMySql demo_server (item_here find74 total76 [(count76, vs "n")] g) [inr neither95])
      [filter (of_user76 1) rows94; filter (of_user76 2) rows94; filter (of_user76 3) rows94] = [filter (of_user76 3) rows94]) by (vm_compute; reflexivity).
    rewrite Q. split; [|split].
    + intros r [<-|[]]. now left.
    + intros c [<-|[]]. exists (filter (of_user76 3) rows94). split; [now left|]. constructor; [split; reflexivity|constructor].
    + constructor; constructor.
  - constructor; constructor.
Qed.
