(** C35, C36, C37: the effects of rendering, and of join() on its argument. *)
From Coq Require Import Lia.
From Verif Require Import Base NumFmt Value Backend Eq Render ParseArgs Build Queries History Demo Effects SpecEffects SpecBackends SpecRerender PfEffects PfWatched PfBackends PfRerender.
Open Scope N_scope.

(** C35.  However often and in whatever order (parts of) an object were rendered
    before, its text is the same, unless a table with two joins occurs inside a joined
    table, an ON condition, a list or a dictionary.  Equality of texts includes the
    exceptions. *)
Theorem C35_render_again_partial : forall E v v', plainly_joined v -> touches E v v' -> text E v' = text E v.
Proof. exact touches_text. Qed.
Print Assumptions C35_render_again_partial.
(** In particular after one complete rendering. *)
Theorem C35_render_twice_partial : forall E v, plainly_joined v -> touch E v (after E v) /\ text E (after E v) = text E v.
Proof. intros E v P. exact (conj (after_touch E (depth v) v P) (after_text E v P)). Qed.
Print Assumptions C35_render_twice_partial.

Definition sub1 : selq val := calls sel_step empty_select
  [(demoW BSql, SColumns [vs "x"] []); (demoW BSql, SFrom [vs "s"] []); (demoW BSql, SJoin JLeft (vs "b")); (demoW BSql, SJoin JLeft (vs "b"))].
Definition sub2 : selq val := calls sel_step empty_select
  [(demoW BSql, SColumns [vs "x"] []); (demoW BSql, SFrom [vs "s"] []); (demoW BSql, SJoin JLeft (vs "b"))].
(** Two joins whose ON conditions differ only before the subselects inside were
    rendered: the second str() shows one join less. *)
Theorem C35_refuted : exists q t t',
  text (demo BSql) (VSelect q) = Ok t /\ text (demo BSql) (after (demo BSql) (VSelect q)) = Ok t' /\
  t = lit "SELECT * FROM ""t"" JOIN ""c"" ON ""c"".""x"" = (SELECT ""x"" FROM ""s"" LEFT JOIN ""b"") JOIN ""c"" ON ""c"".""x"" = (SELECT ""x"" FROM ""s"" LEFT JOIN ""b"")" /\
  t' = lit "SELECT * FROM ""t"" JOIN ""c"" ON ""c"".""x"" = (SELECT ""x"" FROM ""s"" LEFT JOIN ""b"")".
Proof.
  exists (calls sel_step empty_select [(demoW BSql, SFrom [vs "t"] []);
    (demoW BSql, SJoin JInner (vs "c")); (demoW BSql, SOn [vs "c.x"; VSelect sub1] []);
    (demoW BSql, SJoin JInner (vs "c")); (demoW BSql, SOn [vs "c.x"; VSelect sub2] [])]).
  do 2 eexists. split; [vm_compute; reflexivity|]. split; [vm_compute; reflexivity|]. split; reflexivity.
Qed.
Print Assumptions C35_refuted.

Ltac listed H := simpl in H; repeat (destruct H as [H|H]); try contradiction; try (subst; simpl).
Ltac simply := constructor; [let H := fresh in intros ? H; listed H; lia|let H := fresh in intros ? H; listed H; simply].
(** A query with joins that are merged, used as a value and in a FROM. *)
Definition joined : selq val := calls sel_step empty_select
  [(demoW BSql, SFrom [vs "t"] []); (demoW BSql, SJoin JInner (vs "c")); (demoW BSql, SOn [vs "t.a"; vs "c.a"] []);
   (demoW BSql, SJoin JLeft (vs "c")); (demoW BSql, SOn [vs "t.a"; vs "c.a"] []); (demoW BSql, SWhere [vs "id"; VSelect sub1] [])].
Example C35_example : plainly_joined (VSelect joined) /\ after (demo BSql) (VSelect joined) <> VSelect joined /\
  text (demo BSql) (after (demo BSql) (VSelect joined)) =
  Ok (lit "SELECT * FROM ""t"" JOIN ""c"" ON ""t"".""a"" = ""c"".""a"" WHERE ""id"" = (SELECT ""x"" FROM ""s"" LEFT JOIN ""b"")").
Proof.
  split; [|split; [vm_compute; discriminate|vm_compute; reflexivity]].
  vm_compute. repeat (constructor; [intros []|let t := fresh in let x := fresh in let H := fresh in let K := fresh in intros t x H K; listed H; listed K; simply|
    let x := fresh in let H := fresh in intros x H; listed H]).
Qed.

(** The renderings before may also have been for other backends, when no joins have to
    be rendered to be compared (no C, V, R and functions in ON conditions or as the
    joined table). *)
Theorem C35_any_backend_partial : forall E b v v', plainly_joined v -> steadily_joined v -> shown_anywhere E v v' ->
  text (with_be E b) v' = text (with_be E b) v.
Proof. exact shown_text. Qed.
Print Assumptions C35_any_backend_partial.
(** Otherwise a rendering for one backend may change the text for another: C('x') and
    R with the text of a quoted x are equal only for the first. *)
Theorem C35_backend_refuted : exists q,
  text (demo BMySql) (VSelect q) = Ok (lit "SELECT * FROM `t` JOIN `c` ON `a` = `x` JOIN `c` ON `a` = ""x""") /\
  text (demo BMySql) (after (demo BSql) (VSelect q)) = Ok (lit "SELECT * FROM `t` JOIN `c` ON `a` = `x`").
Proof.
  exists (calls sel_step empty_select [(demoW BSql, SFrom [vs "t"] []);
    (demoW BSql, SJoin JInner (vs "c")); (demoW BSql, SOn [vs "a"; VSqlR (vs "x")] []);
    (demoW BSql, SJoin JInner (vs "c")); (demoW BSql, SOn [vs "a"; VCustom (lit """x""")] [])]).
  split; vm_compute; reflexivity.
Qed.
Print Assumptions C35_backend_refuted.
Ltac steady := let x := fresh in let H := fresh in let t := fresh in let K := fresh in
  constructor; [intros t x H K; listed H; listed K; textlessly|intros x H; listed H; steady]
with textlessly := let x := fresh in let H := fresh in
  constructor; [reflexivity|intros ? H; try discriminate H|intros x H; listed H; textlessly].
(** The query above, shown for PostgreSQL, then for MySQL, then used for the default. *)
Example C35_any_backend_example : steadily_joined (VSelect joined) /\
  text (demo BSql) (after (demo BMySql) (after (demo BPostgres) (VSelect joined))) = text (demo BSql) (VSelect joined).
Proof. split; [vm_compute; steady|vm_compute; reflexivity]. Qed.

(** C36.  Nothing changes at all in an object without a table with two joins. *)
Theorem C36_unchanged_partial : forall E v v', simple v -> touches E v v' -> v' = v.
Proof. exact touches_simple. Qed.
Print Assumptions C36_unchanged_partial.
(** Otherwise only the own joins of a query are merged early.  Later calls and str()
    give the same as without the renderings in between ([calm], [watched]: no on()
    without a join() since the last rendering, no table outer joined twice with the same
    conditions in different kinds, if joins are added). *)
Theorem C36_select_partial : forall E q H z os, calm E VSelect sel_step sel_kind q H ->
  watched E VSelect sel_step sel_kind true q H z os ->
  os = outcomes sel_step q H /\ text E (VSelect z) = text E (VSelect (calls sel_step q H)).
Proof. exact sel_watched. Qed.
Print Assumptions C36_select_partial.
Theorem C36_update_partial : forall E q H z os, calm E VUpdate upd_step upd_kind q H ->
  watched E VUpdate upd_step upd_kind true q H z os ->
  os = outcomes upd_step q H /\ text E (VUpdate z) = text E (VUpdate (calls upd_step q H)).
Proof. exact upd_watched. Qed.
Print Assumptions C36_update_partial.
Theorem C36_delete_partial : forall E q H z os, calm E VDelete del_step del_kind q H ->
  watched E VDelete del_step del_kind true q H z os ->
  os = outcomes del_step q H /\ text E (VDelete z) = text E (VDelete (calls del_step q H)).
Proof. exact del_watched. Qed.
Print Assumptions C36_delete_partial.
Theorem C36_insert_partial : forall E q H z os, calm E VInsert ins_step ins_kind q H ->
  watched E VInsert ins_step ins_kind true q H z os ->
  os = outcomes ins_step q H /\ text E (VInsert z) = text E (VInsert (calls ins_step q H)).
Proof. exact ins_watched. Qed.
Print Assumptions C36_insert_partial.
(** The full statement fails: on() after a rendering may meet another join, and a join of
    another kind after a rendering finds the others already merged. *)
Definition shown (q : selq val) : selq val := match after (demo BSql) (VSelect q) with VSelect q' => q' | _ => q end.
Theorem C36_refuted :
  (exists q o, text (demo BSql) (VSelect (fst (sel_step (demoW BSql) q o))) = Ok (lit "SELECT * FROM ""t"" JOIN ""b"" JOIN ""a"" JOIN ""b"" ON ""x"" = ""y""") /\
     text (demo BSql) (VSelect (fst (sel_step (demoW BSql) (shown q) o))) = Ok (lit "SELECT * FROM ""t"" JOIN ""b"" JOIN ""a"" ON ""x"" = ""y""")) /\
  (exists q o, text (demo BSql) (VSelect (fst (sel_step (demoW BSql) q o))) = Ok (lit "SELECT * FROM ""t"" LEFT JOIN ""a"" LEFT JOIN ""a"" RIGHT JOIN ""a""") /\
     text (demo BSql) (VSelect (fst (sel_step (demoW BSql) (shown q) o))) = Ok (lit "SELECT * FROM ""t"" LEFT JOIN ""a"" RIGHT JOIN ""a""")).
Proof.
  split.
  - exists (calls sel_step empty_select [(demoW BSql, SFrom [vs "t"] []); (demoW BSql, SJoin JInner (vs "b")); (demoW BSql, SJoin JInner (vs "a")); (demoW BSql, SJoin JInner (vs "b"))]),
      (SOn [vs "x"; vs "y"] []).
    split; vm_compute; reflexivity.
  - exists (calls sel_step empty_select [(demoW BSql, SFrom [vs "t"] []); (demoW BSql, SJoin JLeft (vs "a")); (demoW BSql, SJoin JLeft (vs "a"))]), (SJoin JRight (vs "a")).
    split; vm_compute; reflexivity.
Qed.
Print Assumptions C36_refuted.

(** Joins, a rendering, another join with its condition, and the text. *)
Definition calls36 : list (world * selop) :=
  [(demoW BSql, SJoin JInner (vs "c")); (demoW BSql, SOn [vs "t.a"; vs "c.a"] []); (demoW BSql, SJoin JLeft (vs "c")); (demoW BSql, SOn [vs "t.a"; vs "c.a"] []);
   (demoW BSql, SJoin JRight (vs "d")); (demoW BSql, SOn [vs "t.a"; vs "d.a"] []); (demoW BSql, SWhere [vs "id"; VInt 1] [])].
Definition start36 : selq val := calls sel_step empty_select [(demoW BSql, SFrom [vs "t"] [])].
Example C36_calm : calm (demo BSql) VSelect sel_step sel_kind start36 calls36.
Proof.
  split.
  - intros s x Hs Hx. revert Hx. vm_compute in Hs. repeat (destruct Hs as [<-|Hs]; [let H := fresh in intros H; vm_compute in H; listed H; simply|]). destruct Hs.
  - right. intros s t Hs Ht. revert Ht. vm_compute in Hs.
    repeat (destruct Hs as [<-|Hs]; [let H := fresh in intros H; vm_compute in H; destruct H as [<-|[]]; intros i j I J Q; cbn [tb_joins In] in I, J;
      repeat match goal with D : _ \/ _ |- _ => destruct D as [D|D]; try subst end; try contradiction; vm_compute in Q; try discriminate Q; cbn [j_type]; auto|]). destruct Hs.
Qed.
Example C36_watched : exists z os, watched (demo BSql) VSelect sel_step sel_kind true start36 calls36 z os /\
  text (demo BSql) (VSelect z) = Ok (lit "SELECT * FROM ""t"" JOIN ""c"" ON ""t"".""a"" = ""c"".""a"" RIGHT JOIN ""d"" ON ""t"".""a"" = ""d"".""a"" WHERE ""id"" = 1") /\
  z <> calls sel_step start36 calls36.
Proof.
  set (q4 := calls sel_step start36 (firstn 4 calls36)).
  exists (calls sel_step (shown q4) (skipn 4 calls36)), (repeat (Ok tt) 7).
  split; [|split; [vm_compute; reflexivity|vm_compute; discriminate]].
  do 4 (apply wt_call; [first [discriminate|intros _; vm_compute; reflexivity]|]). eapply (wt_show _ _ _ _ _ _ (shown q4)).
  - change (VSelect (shown q4)) with (after (demo BSql) (VSelect q4)). change (VSelect (fst _)) with (VSelect q4). apply after_touch.
    vm_compute. repeat (constructor; [intros []|let t := fresh in let x := fresh in let H := fresh in let K := fresh in intros t x H K; listed H; listed K; simply|
      let x := fresh in let H := fresh in intros x H; listed H]).
  - do 3 (apply wt_call; [first [discriminate|intros _; vm_compute; reflexivity]|]). apply wt_end.
Qed.

(** C37.  join() takes the only item out of the caller's dictionary: whatever query,
    using the same dictionary in a second join raises (a dictionary with one item is
    accepted the first time). *)
Theorem C37_refuted :
  (exists q arg, snd (sel_step (demoW BSql) q (SJoin JInner arg)) = Ok tt /\ join_arg_after arg <> arg) /\
  (forall W q ty p, exists e, snd (sel_step W q (SJoin ty (join_arg_after (VDict [p])))) = Err e).
Proof.
  split; [|exact join_same_dict].
  exists start36, (VDict [(vs "a", vs "b")]). split; [reflexivity|discriminate].
Qed.
Print Assumptions C37_refuted.
