(** Programs over several tables with conditions made by Q, Not, & and |, from the arguments of the calls to the rows: C93.
    Specification: SpecObjects.v, SpecProgramQ.v, SpecDistinct.v, SpecMulti.v, SpecJoin.v, SpecProgram.v, SpecSql.v. *)
From Coq Require Import Permutation Sorted.
From Verif Require Import Base NumFmt Value Backend Eq Render ParseArgs Build Queries History Demo
  SpecLex SpecRef SpecLogic SpecHistory SpecArgs SpecErrors SpecWhole SpecSql SpecServer SpecProgram SpecProgramQ SpecJoin SpecMulti SpecDistinct SpecObjects PfObjects
  Prop_Server Prop_Program Prop_ProgramQ Prop_Join Prop_Multi Prop_Distinct.
From Verif Require SpecLists.
Open Scope N_scope.

(** C93, SELECT: the programs of C92, and calls of where with objects. *)
Theorem C93_select : forall E b H given srcs,
  Forall2 (fun bo g => select_with E b (fst bo) (snd bo) g) H given ->
  let cols := flat_map (fun g => as_columns (fst g)) given in let order := flat_map (fun g => as_order (fst g)) given in
  tables_asked (flat_map (fun g => as_from (fst g)) given) = Some srcs -> NoDup (flat_map names_of srcs) ->
  bounded (wanted_limit (map snd H)) -> bounded (wanted_offset (map snd H)) ->
  (forall c a k v, In (c, VStr a) cols -> In (VStr k, v) order -> name_segments a <> name_segments k) ->
  (distinct_asked (map snd H) = true -> forall k v, In (k, v) order ->
     exists c a, In (c, a) (columns_asked cols) /\ (segments c = segments k \/ segments c = [lit "*"])) ->
  let h := program E H in
  let q := calls sel_step empty_select h in
  all_succeed sel_step empty_select h /\
  exists s st cols' order', text (with_be E b) (VSelect q) = Ok s /\ understood (dialect_of b) s = Some st /\
    first_occurrences cols cols' /\ SpecLists.ordered_list (supper E) order order' /\
    forall sv find le db out, mirrored sv -> (option_answers sv find le db st out <->
      rows_asked b sv find le db (distinct_asked (map snd H)) (columns_asked cols') srcs (fun c => items_hold b sv (find c) (flat_map snd given)) order'
        (wanted_limit (map snd H)) (wanted_offset (map snd H)) out).
Proof. intros E b. exact (select_objects_program b E). Qed.
Print Assumptions C93_select.

(** C93, DELETE: the programs of C90, and calls of where with objects. *)
Theorem C93_delete : forall E b H given srcs,
  Forall2 (fun bo g => delete_with E b (fst bo) (snd bo) g) H given ->
  tables_asked (flat_map (fun g => ad_from (fst g)) given) = Some srcs -> NoDup (flat_map names_of srcs) -> srcs <> [] ->
  let targets := map (fun p => segments (fst p)) (flat_map (fun g => ad_targets (fst g)) given) in
  targets <> [] -> (forall p, In p targets -> In p (flat_map names_of srcs)) ->
  flat_map snd given <> [] \/ delete_confirmed (map snd H) ->
  let h := program E H in
  let q := calls del_step empty_delete h in
  all_succeed del_step empty_delete h /\
  exists s st, text (with_be E b) (VDelete q) = Ok s /\ understood (dialect_of b) s = Some st /\
    forall sv find db, mirrored sv -> exists db', multi_delete sv find st db = Some db' /\
      forall t, db' t = map snd (filter (fun x => negb (removed (map (tree_asked b sv find) srcs)
        (rows_with b sv find db srcs (flat_map snd given)) targets t (fst x))) (indexed (db t))).
Proof. intros E b. exact (delete_objects_program b E). Qed.
Print Assumptions C93_delete.

(** C93, UPDATE: the programs of C91, and calls of where with objects. *)
Theorem C93_update : forall E b H given srcs,
  Forall2 (fun bo g => update_with E b (fst bo) (snd bo) g) H given ->
  tables_asked (flat_map (fun g => au_from (fst g)) given) = Some srcs -> NoDup (flat_map names_of srcs) -> srcs <> [] ->
  let sets := flat_map (fun g => au_sets (fst g)) given in let conds := flat_map snd given in
  sets <> [] -> conds <> [] \/ update_confirmed (map snd H) ->
  let h := program E H in
  let q := calls upd_step empty_update h in
  all_succeed upd_step empty_update h /\
  exists s st, text (with_be E b) (VUpdate q) = Ok s /\ understood (dialect_of b) s = Some st /\
    forall sv find own db, mirrored sv -> (forall n, none_returns (for_table own n (stores b sets))) ->
      exists db', multi_update sv find own st db = Some db' /\
      forall t, Forall2 (fun x new => forall c, new c =
          match last_for c (row_assigned own (asked_names b sv find srcs) (rows_with b sv find db srcs conds) (stores b sets) t (fst x)) with
          | Some l => l | None => snd x c end) (indexed (db t)) (db' t).
Proof. intros E b. exact (update_objects_program b E). Qed.
Print Assumptions C93_update.

(** ** Examples.  Tables and programs of C74, C90, C91, C92. *)
(** The keyword u.name with 'b', or the keyword o.total with None: Q(...) | Q(...) *)
Definition either93 : cexp :=
  XBin OpOr (XPairs false [] [(lit "u.name", vs "b")] [(vs "u.name", vs "b")]) (XPairs false [] [(lit "o.total", VNone)] [(vs "o.total", VNone)]).
(** Not(Q(...) | Q(...)) *)
Definition neither93 : cexp := XAll true [either93].
Example C93_sensible : sensible BMySql neither93.
Proof.
  split; [split; [discriminate|now left]|]. split; [|exact Logic.I].
  split; [|split; [|split; reflexivity]]; (split; [|discriminate]); apply one_where; try exact Logic.I; try (split; [cbn; intuition discriminate|vm_compute; discriminate]).
  cbn. fits.
Qed.
Lemma asks93 : where_asks (demo BMySql) BMySql [object71 either93] [] [inr either93] /\ where_asks (demo BMySql) BMySql [object71 neither93] [] [inr neither93].
Proof.
  split; [apply (wi_objects _ _ [either93] [object71 either93])|apply (wi_objects _ _ [neither93] [object71 neither93])];
    try (split; [discriminate|now left]); try (constructor; [|constructor]); try (vm_compute; reflexivity);
    [exact (proj1 (proj2 C93_sensible))|exact C93_sensible].
Qed.
Lemma others93 : forall (A B C : Type) (R : A -> B -> Prop) (S : A -> B * list C -> Prop) (P : A -> Prop),
  (forall x y, R x y -> P x -> S x (y, [])) -> forall l m, Forall2 R l m -> Forall P l -> Forall2 S l (map (fun y => (y, [])) m).
Proof. intros A B C R S P K l m F. induction F; intros G; cbn; [constructor|]. inversion G; subst. constructor; auto. Qed.
Lemma first93 : forall (A B : Type) (R : A -> B -> Prop) n l m, Forall2 R l m -> Forall2 R (firstn n l) (firstn n m).
Proof. intros A B R n l m F. revert n. induction F; intros [|n]; cbn; constructor; auto. Qed.

Definition calls93s : list (backend * selop) := calls92 ++ [(BMySql, SWhere [object71 neither93] [])].
Definition given93s : list (asks * list where_item) := map (fun g => (g, [])) given92 ++ [(nothing, [inr neither93])].
Example C93_select_ok : Forall2 (fun bo g => select_with (demo BMySql) BMySql (fst bo) (snd bo) g) calls93s given93s /\
  flat_map snd given93s = [inr neither93] /\
  flat_map (fun g => as_columns (fst g)) given93s = flat_map as_columns given92 /\ flat_map (fun g => as_from (fst g)) given93s = flat_map as_from given92 /\
  flat_map (fun g => as_order (fst g)) given93s = flat_map as_order given92 /\
  wanted_limit (map snd calls93s) = wanted_limit (map snd calls92) /\ wanted_offset (map snd calls93s) = wanted_offset (map snd calls92) /\
  distinct_asked (map snd calls93s) = distinct_asked (map snd calls92).
Proof.
  split; [|repeat split; reflexivity]. apply Forall2_app; [|constructor; [|constructor]].
  - apply (others93 _ _ _ _ _ (fun c : backend * selop => forall a k, snd c <> SWhere a k)) with (2 := proj1 C92_ok); [|repeat constructor; discriminate].
    intros [bo op] g P N. cbn [fst snd] in *. now apply sw_other.
  - apply sw_where; [reflexivity|apply asks93].
Qed.
Definition select93 : selq val := calls sel_step empty_select (program (demo BMySql) calls93s).
Example C93_select_example : text (demo BMySql) (VSelect select93) =
  Ok (lit "SELECT DISTINCT SQL_CACHE `u`.`name` FROM `user` AS `u` JOIN `order` AS `o` ON `u`.`id` = `o`.`user` WHERE NOT((`u`.`name` = 'b' OR `o`.`total` IS NULL)) ORDER BY `u`.`name`").
Proof. vm_compute. reflexivity. Qed.
Example C93_rows :
  map (fun c => find74 c [lit "o"; lit "total"]) (filter (fun c => items_hold BMySql demo_server (find74 c) [inr neither93]) joined92) = [LInt 4; LInt 9] /\
  map (fun c => find74 c [lit "o"; lit "total"]) (filter (fun c => items_hold BMySql demo_server (find74 c) [inr either93]) joined92) = [LInt 7; LInt 1].
Proof. vm_compute. auto. Qed.

(** delete('o').from_(('user', 'u')).left_join(('order', 'o')).on('u.id', 'o.user').where(...) *)
Definition calls93d (e : cexp) : list (backend * delop) := firstn 4 calls90 ++ [(BMySql, DWhere [object71 e] [])].
Definition given93d (e : cexp) : list (asks_delete * list where_item) := map (fun g => (g, [])) (firstn 4 given90) ++ [(MkAD [] [] [], [inr e])].
Example C93_delete_ok : Forall2 (fun bo g => delete_with (demo BMySql) BMySql (fst bo) (snd bo) g) (calls93d either93) (given93d either93) /\
  Forall2 (fun bo g => delete_with (demo BMySql) BMySql (fst bo) (snd bo) g) (calls93d neither93) (given93d neither93) /\
  flat_map (fun g => ad_from (fst g)) (given93d either93) = flat_map ad_from given90 /\ flat_map (fun g => ad_targets (fst g)) (given93d either93) = flat_map ad_targets given90 /\
  flat_map snd (given93d either93) = [inr either93].
Proof.
  split; [|split; [|repeat split; reflexivity]]; (apply Forall2_app; [|constructor; [|constructor]]);
    try (apply dw_where; [reflexivity|apply asks93]);
    (apply (others93 _ _ _ (fun c g => delete_join_call BMySql (snd c) g) _ (fun c : backend * delop => forall a k, snd c <> DWhere a k));
     [intros [bo op] g P N; cbn [fst snd] in *; now apply dw_other|apply first93; exact (proj1 C90_ok)|repeat constructor; discriminate]).
Qed.
Definition delete93 (e : cexp) : delq val := calls del_step empty_delete (program (demo BMySql) (calls93d e)).
Example C93_delete_example :
  let s := lit "DELETE `o` FROM `user` AS `u` LEFT JOIN `order` AS `o` ON `u`.`id` = `o`.`user` WHERE (`u`.`name` = 'b' OR `o`.`total` IS NULL)" in
  text (demo BMySql) (VDelete (delete93 either93)) = Ok s /\ after90 s "order" ["user"%string; "total"%string] = Some [[LInt 3; LInt 9]; [LNull; LInt 7]] /\
  let s := lit "DELETE `o` FROM `user` AS `u` LEFT JOIN `order` AS `o` ON `u`.`id` = `o`.`user` WHERE NOT((`u`.`name` = 'b' OR `o`.`total` IS NULL))" in
  text (demo BMySql) (VDelete (delete93 neither93)) = Ok s /\ after90 s "order" ["user"%string; "total"%string] = Some [[LInt 2; LInt 4]; [LNull; LInt 7]].
Proof. vm_compute. auto. Qed.

(** update(('user', 'u')).join(('order', 'o')).on('u.id', 'o.user').set('u.name', 'x').set('o.total', 0).where(...) *)
Definition calls93u (e : cexp) : list (backend * updop) := firstn 5 calls91 ++ [(BMySql, UWhere [object71 e] [])].
Definition given93u (e : cexp) : list (asks_update * list where_item) := map (fun g => (g, [])) (firstn 5 given91) ++ [(MkAU [] [] [], [inr e])].
Example C93_update_ok : Forall2 (fun bo g => update_with (demo BMySql) BMySql (fst bo) (snd bo) g) (calls93u neither93) (given93u neither93) /\
  flat_map (fun g => au_from (fst g)) (given93u neither93) = flat_map au_from given91 /\ flat_map (fun g => au_sets (fst g)) (given93u neither93) = flat_map au_sets given91 /\
  flat_map snd (given93u neither93) = [inr neither93].
Proof.
  split; [|repeat split; reflexivity]. apply Forall2_app; [|constructor; [|constructor]].
  - apply (others93 _ _ _ (fun c g => update_join_call BMySql (snd c) g) _ (fun c : backend * updop => forall a k, snd c <> UWhere a k));
     [intros [bo op] g P N; cbn [fst snd] in *; now apply uw_other|apply first93; exact (proj1 C91_ok)|repeat constructor; discriminate].
  - apply uw_where; [reflexivity|apply asks93].
Qed.
Definition update93 (e : cexp) : updq val := calls upd_step empty_update (program (demo BMySql) (calls93u e)).
Example C93_update_example :
  let s := lit "UPDATE `user` AS `u` JOIN `order` AS `o` ON `u`.`id` = `o`.`user` SET `u`.`name` = 'x', `o`.`total` = 0 WHERE NOT((`u`.`name` = 'b' OR `o`.`total` IS NULL))" in
  text (demo BMySql) (VUpdate (update93 neither93)) = Ok s /\
  after91 s "user" ["id"%string; "name"%string] = Some [[LInt 1; LText (lit "a")]; [LInt 2; LText (lit "b")]; [LInt 3; LText (lit "x")]] /\
  after91 s "order" ["user"%string; "total"%string] = Some [[LInt 2; LInt 4]; [LInt 3; LInt 0]; [LNull; LInt 7]].
Proof. vm_compute. auto. Qed.
