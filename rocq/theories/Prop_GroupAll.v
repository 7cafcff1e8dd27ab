(** Select programs with groups, options and conditions made by Q, Not, & and |, from the arguments of the calls to the rows: C94.
    Specification: SpecGroupAll.v, SpecGroup.v, SpecDistinct.v, SpecProgramQ.v, SpecJoin.v, SpecProgram.v, SpecSql.v. *)
From Coq Require Import Permutation Sorted.
From Verif Require Import Base NumFmt Value Backend Eq Render ParseArgs Build Queries History Demo
  SpecLex SpecRef SpecLogic SpecHistory SpecArgs SpecErrors SpecWhole SpecSql SpecServer SpecProgram SpecProgramQ SpecJoin SpecGroup SpecDistinct SpecGroupAll PfGroupAll
  Prop_Server Prop_Program Prop_ProgramQ Prop_Join Prop_Group.
From Verif Require SpecLists.
Open Scope N_scope.

(** C94.  If only distinct rows are asked for, they are sorted by columns asked for or their aliases. *)
Theorem C94_groups : forall E b H given srcs,
  Forall2 (fun bo g => grouped_call E b (fst bo) (snd bo) g) H given ->
  let cols := flat_map (fun g => as_columns (ag_join (fst g))) given in let order := flat_map (fun g => as_order (ag_join (fst g))) given in
  let group := flat_map (fun g => ag_group (fst g)) given in let having := flat_map (fun g => ag_having (fst g)) given in
  tables_asked (flat_map (fun g => as_from (ag_join (fst g))) given) = Some srcs -> NoDup (flat_map names_of srcs) ->
  bounded (wanted_limit (map snd H)) -> bounded (wanted_offset (map snd H)) ->
  (forall c a k v, In (c, VStr a) cols -> In (VStr k, v) group -> name_segments a <> name_segments k) ->
  (distinct_asked (map snd H) = true -> forall k v, In (k, v) order -> exists c a, In (c, a) (columns_asked cols) /\ (c = k \/ a = k)) ->
  let h := program E H in
  let q := calls sel_step empty_select h in
  all_succeed sel_step empty_select h /\
  exists s st cols' order', text (with_be E b) (VSelect q) = Ok s /\ understood (dialect_of b) s = Some st /\
    first_occurrences cols cols' /\ SpecLists.ordered_list (supper E) order order' /\
    forall sv find le same total by_alias db out, mirrored sv -> (grouped_answers sv find le same total by_alias db st out <->
      groups_asked b sv find le same total by_alias db (distinct_asked (map snd H)) (columns_asked cols') srcs
        (fun c => items_hold b sv (find c) (flat_map snd given)) group having order' (wanted_limit (map snd H)) (wanted_offset (map snd H)) out).
Proof. intros E b. exact (grouped_program b E). Qed.
Print Assumptions C94_groups.

(** ** Examples *)
(** The keyword u.name with 'a', or the keyword o.total with GT(3): Q(...) | Q(...) *)
Definition either94 : cexp :=
  XBin OpOr (XPairs false [] [(lit "u.name", vs "a")] [(vs "u.name", vs "a")]) (XPairs false [] [(lit "o.total", VRel RGt (VInt 3))] [(vs "o.total", VRel RGt (VInt 3))]).
Lemma asks94 : where_asks (demo BMySql) BMySql [object71 either94] [] [inr either94].
Proof.
  apply (wi_objects _ _ [either94] [object71 either94]); [split; [discriminate|now left]|constructor; [|constructor]|constructor; [vm_compute; reflexivity|constructor]].
  split; [|split; [|split; reflexivity]]; (split; [|discriminate]); apply one_where; try exact Logic.I; try (split; [cbn; intuition discriminate|vm_compute; discriminate]).
  cbn. fits.
Qed.
(** columns((Count('o.total'), 'n')).from_(('user', 'u')).join(('order', 'o')).on('u.id', 'o.user').where(Q(...) | Q(...))
    .distinct().group_by('u.name').order_by(('n', 'desc')) *)
Definition calls94 : list (backend * selop) :=
  [(BMySql, SColumns [VSeq KTuple [count76; vs "n"]] []);
   (BMySql, SFrom [VSeq KTuple [vs "user"; vs "u"]] []);
   (BMySql, SJoin JInner (VSeq KTuple [vs "order"; vs "o"]));
   (BMySql, SOn [vs "u.id"; vs "o.user"] []);
   (BMySql, SWhere [object71 either94] []);
   (BMySql, SOpt ODistinct (VBool true));
   (BMySql, SGroupBy [vs "u.name"] []);
   (BMySql, SOrderBy [VSeq KTuple [vs "n"; vs "desc"]] [])].
Definition given94 : list (asks_groups * list where_item) :=
  [(MkGroups (MkAsks [(count76, vs "n")] [] [] []) [] [], []);
   (MkGroups (MkAsks [] [PTables [(vs "user", vs "u")]] [] []) [] [], []);
   (MkGroups (MkAsks [] [PJoin InnerJoin (vs "order") (vs "o")] [] []) [] [], []);
   (MkGroups (MkAsks [] [POn [(vs "u.id", vs "o.user")]] [] []) [] [], []);
   (MkGroups nothing [] [], [inr either94]);
   (MkGroups nothing [] [], []);
   (MkGroups nothing [(vs "u.name", VNone)] [], []);
   (MkGroups (MkAsks [] [] [] [(vs "n", vs "desc")]) [] [], [])].
Example C94_ok : Forall2 (fun bo g => grouped_call (demo BMySql) BMySql (fst bo) (snd bo) g) calls94 given94 /\
  tables_asked (flat_map (fun g => as_from (ag_join (fst g))) given94) = Some srcs76 /\ NoDup (flat_map names_of srcs76) /\
  bounded (wanted_limit (map snd calls94)) /\ bounded (wanted_offset (map snd calls94)) /\
  (forall c a k v, In (c, VStr a) (flat_map (fun g => as_columns (ag_join (fst g))) given94) -> In (VStr k, v) (flat_map (fun g => ag_group (fst g)) given94) ->
     name_segments a <> name_segments k) /\
  distinct_asked (map snd calls94) = true /\
  (forall k v, In (k, v) (flat_map (fun g => as_order (ag_join (fst g))) given94) ->
     exists c a, In (c, a) (columns_asked (flat_map (fun g => as_columns (ag_join (fst g))) given94)) /\ (c = k \/ a = k)).
Proof.
  split; [|split; [reflexivity|split; [|split; [exact Logic.I|split; [exact Logic.I|split; [|split; [reflexivity|]]]]]]].
  - constructor; [|constructor; [|constructor; [|constructor; [|constructor; [|constructor; [|constructor; [|constructor; [|constructor]]]]]]]]; cbn [fst snd];
      try apply gw_option; try (apply gw_where; [reflexivity|exact asks94]); (apply gw_other; [|discriminate]).
    + apply gc_columns; [no_dict| |].
      * apply (aa_items _ [(count76, vs "n")] [] []); [one_item|tuple_item|split; [reflexivity|constructor]].
      * constructor; [|constructor]. split; [|right; named].
        split; [cbn; unfold simple_name, good_name; cbn; intuition discriminate|reflexivity].
    + apply gc_plain; [|reflexivity|reflexivity]. apply jc_from; [no_dict| |].
      * apply (aa_items _ [(vs "user", vs "u")] [] []); [one_item|tuple_item|split; [reflexivity|constructor]].
      * constructor; [|constructor]. split; [named|right; named].
    + apply gc_plain; [|reflexivity|reflexivity].
      apply (jc_join _ _ _ JInner); [|split; [named|right; named]|discriminate]. apply SpecLists.ja_pair. right. reflexivity.
    + apply gc_plain; [|reflexivity|reflexivity].
      apply jc_on; [no_dict|has_data|two_args|]. constructor; [|constructor]. split; [named|]. cbn. split; [cbn; intuition discriminate|vm_compute; discriminate].
    + apply gc_group; [no_dict| |].
      * apply (aa_items _ [(vs "u.name", VNone)] [] []); [one_item| |split; [reflexivity|constructor]].
        constructor; [right; split; [data|reflexivity]|constructor].
      * constructor; [|constructor]. split; [named|]. left. split; reflexivity.
    + apply gc_order; [no_dict| |].
      * apply (aa_items _ [(vs "n", vs "desc")] [] []); [one_item|tuple_item|split; [reflexivity|constructor]].
      * constructor; [|constructor]. split; [cbn; unfold simple_name, good_name; cbn; intuition discriminate|].
        exists Desc. right. eexists. split; [reflexivity|]. right. split; [vm_compute|]; reflexivity.
  - vm_compute. repeat constructor; cbn; intuition discriminate.
  - intros c a k v [H|[]] [H'|[]]. injection H as <- <-. injection H' as <- <-. vm_compute. discriminate.
  - intros k v [H|[]]. injection H as <- <-. exists count76, (vs "n"). split; [now left|now right].
Qed.
Definition select94 : selq val := calls sel_step empty_select (program (demo BMySql) calls94).
Example C94_example : text (demo BMySql) (VSelect select94) =
  Ok (lit "SELECT DISTINCT COUNT(`o`.`total`) AS `n` FROM `user` AS `u` JOIN `order` AS `o` ON `u`.`id` = `o`.`user` WHERE (`u`.`name` = 'a' OR `o`.`total` > 3) GROUP BY `u`.`name` ORDER BY `n` DESC").
Proof. vm_compute. reflexivity. Qed.
(** Users 1 and 3 have one such order each, user 2 has three. *)
Definition rows94 : list combination :=
  filter (fun c => items_hold BMySql demo_server (find74 c) [inr either94]) (all_rows db76 (map (tree_asked BMySql demo_server find74) srcs76)).
Definition counts94 (d : bool) (out : list Z) : Prop :=
  groups_asked BMySql demo_server find74 lit_le same76 total76 true db76 d [(count76, vs "n")] srcs76
    (fun c => items_hold BMySql demo_server (find74 c) [inr either94]) [(vs "u.name", VNone)] [] [(vs "n", Desc)] None None
    (map (fun n => [(Some [lit "n"], OneCell (LInt n))]) out).
Lemma groups94 : groups same76 (map (fun p c => find74 c (segments (fst p))) [(vs "u.name", VNone)]) true rows94
  [filter (of_user76 1) rows94; filter (of_user76 2) rows94; filter (of_user76 3) rows94].
Proof.
  split.
  - vm_compute. apply Permutation_refl.
  - split.
    + constructor; [|constructor; [|constructor; [|constructor]]]; (split; [vm_compute; discriminate|]); intros c d I J; vm_compute in I, J;
        repeat (destruct I as [I|I]; [subst c|]); try contradiction; repeat (destruct J as [J|J]; [subst d|]); try contradiction; vm_compute; reflexivity.
    + constructor; [|constructor; [|constructor; [|constructor]]]; repeat (apply Forall_cons || apply Forall_nil); intros c d I J; vm_compute in I, J;
        repeat (destruct I as [I|I]; [subst c|]); try contradiction; repeat (destruct J as [J|J]; [subst d|]); try contradiction; vm_compute; reflexivity.
Qed.
Example C94_rows : counts94 true [3; 1]%Z /\ counts94 false [3; 1; 1]%Z.
Proof.
  split.
  - apply (gasked BMySql demo_server find74 lit_le same76 total76 true db76 true [(count76, vs "n")] srcs76
      (fun c => items_hold BMySql demo_server (find74 c) [inr either94]) [(vs "u.name", VNone)] [] [(vs "n", Desc)] None None
      [filter (of_user76 1) rows94; filter (of_user76 2) rows94; filter (of_user76 3) rows94] [filter (of_user76 2) rows94; filter (of_user76 1) rows94]); [exact groups94| |].
    + split; [|split].
      * intros r [<-|[<-|[]]]; cbn; auto.
      * intros c [<-|[<-|[<-|[]]]].
        1, 3: exists (filter (of_user76 1) rows94); (split; [right; left; reflexivity|]); constructor; [split; vm_compute; reflexivity|constructor].
        exists (filter (of_user76 2) rows94); (split; [left; reflexivity|]); constructor; [split; vm_compute; reflexivity|constructor].
      * constructor; [|constructor; [constructor|constructor]]. constructor; [|constructor]. intros A. inversion A as [|? ? ? ? [_ Q] _]; subst. vm_compute in Q. discriminate Q.
    + vm_compute. repeat constructor.
  - apply (gasked BMySql demo_server find74 lit_le same76 total76 true db76 false [(count76, vs "n")] srcs76
      (fun c => items_hold BMySql demo_server (find74 c) [inr either94]) [(vs "u.name", VNone)] [] [(vs "n", Desc)] None None
      [filter (of_user76 1) rows94; filter (of_user76 2) rows94; filter (of_user76 3) rows94]
      [filter (of_user76 2) rows94; filter (of_user76 1) rows94; filter (of_user76 3) rows94]); [exact groups94| |].
    + apply perm_swap.
    + vm_compute. repeat constructor.
Qed.
