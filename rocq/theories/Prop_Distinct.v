(** Select programs with options over several tables, from the arguments of the calls to the rows: C92.
    Specification: SpecDistinct.v, SpecJoin.v, SpecProgram.v, SpecHistory.v, SpecArgs.v, SpecSql.v. *)
From Coq Require Import Permutation Sorted.
From Verif Require Import Base NumFmt Value Backend Eq Render ParseArgs Build Queries History Demo
  SpecLex SpecRef SpecLogic SpecHistory SpecArgs SpecErrors SpecWhole SpecSql SpecServer SpecProgram SpecJoin SpecDistinct PfDistinct
  Prop_Server Prop_Program Prop_Join.
From Verif Require SpecLists.
Open Scope N_scope.

(** C92.  The programs of C74 with calls of distinct, distinctrow, all, sql_cache, ... among the
    others.  If only distinct rows are asked for at the end, they are sorted by what they show. *)
Theorem C92_distinct : forall E b H given srcs,
  Forall2 (fun bo g => option_call b (supper E) (fst bo) (snd bo) g) H given ->
  tables_asked (flat_map as_from given) = Some srcs -> NoDup (flat_map names_of srcs) ->
  bounded (wanted_limit (map snd H)) -> bounded (wanted_offset (map snd H)) ->
  (forall c a k v, In (c, VStr a) (flat_map as_columns given) -> In (VStr k, v) (flat_map as_order given) -> name_segments a <> name_segments k) ->
  (distinct_asked (map snd H) = true -> forall k v, In (k, v) (flat_map as_order given) ->
     exists c a, In (c, a) (columns_asked (flat_map as_columns given)) /\ (segments c = segments k \/ segments c = [lit "*"])) ->
  let h := program E H in
  let q := calls sel_step empty_select h in
  all_succeed sel_step empty_select h /\
  exists s st cols order, text (with_be E b) (VSelect q) = Ok s /\ understood (dialect_of b) s = Some st /\
    first_occurrences (flat_map as_columns given) cols /\ SpecLists.ordered_list (supper E) (flat_map as_order given) order /\
    forall sv find le db out, mirrored sv -> (option_answers sv find le db st out <->
      rows_asked b sv find le db (distinct_asked (map snd H)) (columns_asked cols) srcs (fun c => where_holds b sv (find c) (flat_map as_where given)) order
        (wanted_limit (map snd H)) (wanted_offset (map snd H)) out).
Proof. intros E b. exact (option_program b E). Qed.
Print Assumptions C92_distinct.

(** ** Examples *)
(** columns('u.name').sql_cache().all().from_(('user', 'u')).join(('order', 'o')).on('u.id', 'o.user').distinct().order_by('u.name') *)
Definition calls92 : list (backend * selop) :=
  [(BMySql, SColumns [vs "u.name"] []);
   (BMySql, SOpt OSqlCache (VBool true));
   (BMySql, SOpt OAll (VBool true));
   (BMySql, SFrom [VSeq KTuple [vs "user"; vs "u"]] []);
   (BMySql, SJoin JInner (VSeq KTuple [vs "order"; vs "o"]));
   (BMySql, SOn [vs "u.id"; vs "o.user"] []);
   (BMySql, SOpt ODistinct (VBool true));
   (BMySql, SOrderBy [vs "u.name"] [])].
Definition given92 : list asks :=
  [MkAsks [(vs "u.name", VNone)] [] [] []; nothing; nothing;
   MkAsks [] [PTables [(vs "user", vs "u")]] [] [];
   MkAsks [] [PJoin InnerJoin (vs "order") (vs "o")] [] [];
   MkAsks [] [POn [(vs "u.id", vs "o.user")]] [] [];
   nothing;
   MkAsks [] [] [] [(vs "u.name", VNone)]].
Definition srcs92 : list asked_table :=
  [MkAT (vs "user") (vs "u") [MkAJ InnerJoin (vs "order") (vs "o") [(vs "u.id", vs "o.user")]]].
Example C92_ok : Forall2 (fun bo g => option_call BMySql (supper (demo BMySql)) (fst bo) (snd bo) g) calls92 given92 /\
  tables_asked (flat_map as_from given92) = Some srcs92 /\ NoDup (flat_map names_of srcs92) /\
  bounded (wanted_limit (map snd calls92)) /\ bounded (wanted_offset (map snd calls92)) /\
  (forall c a k v, In (c, VStr a) (flat_map as_columns given92) -> In (VStr k, v) (flat_map as_order given92) -> name_segments a <> name_segments k) /\
  distinct_asked (map snd calls92) = true /\
  forall k v, In (k, v) (flat_map as_order given92) ->
    exists c a, In (c, a) (columns_asked (flat_map as_columns given92)) /\ (segments c = segments k \/ segments c = [lit "*"]).
Proof.
  split; [|split; [reflexivity|split; [|split; [exact Logic.I|split; [exact Logic.I|split; [|split; [reflexivity|]]]]]]].
  - constructor; [|constructor; [|constructor; [|constructor; [|constructor; [|constructor; [|constructor; [|constructor; [|constructor]]]]]]]]; cbn [fst snd];
      try apply oc_option; apply oc_join.
    + apply jc_columns; [no_dict| |].
      * apply (aa_items _ [(vs "u.name", VNone)] [] []); [one_item| |split; [reflexivity|constructor]].
        constructor; [right; split; [data|reflexivity]|constructor].
      * constructor; [|constructor]. split; [named|left; reflexivity].
    + apply jc_from; [no_dict| |].
      * apply (aa_items _ [(vs "user", vs "u")] [] []); [one_item|tuple_item|split; [reflexivity|constructor]].
      * constructor; [|constructor]. split; [named|right; named].
    + apply (jc_join _ _ _ JInner); [|split; [named|right; named]|discriminate]. apply SpecLists.ja_pair. right. reflexivity.
    + apply jc_on; [no_dict|has_data|two_args|]. constructor; [|constructor]. split; [named|]. cbn. split; [cbn; intuition discriminate|vm_compute; discriminate].
    + apply jc_order; [no_dict| |].
      * apply (aa_items _ [(vs "u.name", VNone)] [] []); [one_item| |split; [reflexivity|constructor]].
        constructor; [right; split; [data|reflexivity]|constructor].
      * constructor; [|constructor]. split; [named|]. exists Asc. left. split; reflexivity.
  - vm_compute. repeat constructor; cbn; intuition discriminate.
  - intros c a k v [H|[]]. discriminate H.
  - intros k v [H|[]]. injection H as <- <-. exists (vs "u.name"), VNone. split; [left; reflexivity|left; reflexivity].
Qed.
Definition select92 : selq val := calls sel_step empty_select (program (demo BMySql) calls92).
Example C92_example : text (demo BMySql) (VSelect select92) =
  Ok (lit "SELECT DISTINCT SQL_CACHE `u`.`name` FROM `user` AS `u` JOIN `order` AS `o` ON `u`.`id` = `o`.`user` ORDER BY `u`.`name`").
Proof. vm_compute. reflexivity. Qed.
(** User 3 has two orders and is shown once; users 2 and 4 have one name. *)
Definition db92 : database := fun p =>
  if path_eqb p [lit "user"] then [user74 1 "a"; user74 2 "b"; user74 3 "c"; user74 4 "b"]
  else if path_eqb p [lit "order"] then [order74 (LInt 3) 4; order74 (LInt 2) 7; order74 (LInt 3) 9; order74 (LInt 4) 1] else [].
Definition joined92 : list combination := all_rows db92 (map (tree_asked BMySql demo_server find74) srcs92).
Definition names92 (d : bool) (out : list string) : Prop :=
  rows_asked BMySql demo_server find74 lit_le db92 d [(vs "u.name", VNone)] srcs92 (fun c => where_holds BMySql demo_server (find74 c) []) [(vs "u.name", Asc)] None None
    (map (fun n => [(None, OneCell (LText (lit n)))]) out).
Example C92_rows : names92 true ["b"; "c"]%string.
Proof.
  apply (arows BMySql demo_server find74 lit_le db92 true [(vs "u.name", VNone)] srcs92 (fun c => where_holds BMySql demo_server (find74 c) []) [(vs "u.name", Asc)] None None
    [[([lit "u"], user74 2 "b"); ([lit "o"], order74 (LInt 2) 7)]; [([lit "u"], user74 3 "c"); ([lit "o"], order74 (LInt 3) 4)]]).
  - assert (F : filter (fun c => where_holds BMySql demo_server (find74 c) []) (all_rows db92 (map (tree_asked BMySql demo_server find74) srcs92)) =
      [[([lit "u"], user74 2 "b"); ([lit "o"], order74 (LInt 2) 7)]; [([lit "u"], user74 3 "c"); ([lit "o"], order74 (LInt 3) 4)];
       [([lit "u"], user74 3 "c"); ([lit "o"], order74 (LInt 3) 9)]; [([lit "u"], user74 4 "b"); ([lit "o"], order74 (LInt 4) 1)]]) by (vm_compute; reflexivity).
    rewrite F. split; [|split].
    + intros r [<-|[<-|[]]]; cbn; auto.
    + intros c [<-|[<-|[<-|[<-|[]]]]].
      1, 4: eexists; (split; [left; reflexivity|]); constructor; [split; vm_compute; reflexivity|constructor].
      all: eexists; (split; [right; left; reflexivity|]); constructor; [split; vm_compute; reflexivity|constructor].
    + constructor; [|constructor; [constructor|constructor]]. constructor; [|constructor]. intros A. inversion A as [|? ? ? ? [_ Q] _]; subst. vm_compute in Q. discriminate Q.
  - vm_compute. repeat constructor.
Qed.
Example C92_not_twice : ~ names92 true ["b"; "b"; "c"; "c"]%string.
Proof.
  intros A. inversion A as [rows R S Q]. clear A S. cbn [map] in Q. destruct R as [_ [_ R]].
  change (slice None None rows) with rows in Q.
  destruct rows as [|r [|s rows]]; try discriminate Q. cbn [map] in Q. injection Q as Q1 Q2 _.
  inversion R as [|? ? R1 _]; subst. inversion R1 as [|? ? R2 _]; subst. apply R2.
  constructor; [|constructor]. split; [reflexivity|]. exact (eq_trans Q1 (eq_sym Q2)).
Qed.
