(** Properties C51 (equal queries have the same text) and C19 (only conditions with the same text
    are dropped) where SQL objects occur.  Specification: SpecSame.v. *)
From Verif Require Import Base NumFmt Value Backend Eq Render ParseArgs Build Queries History SpecArgs SpecEquality SpecSame PfSame Demo.
Open Scope N_scope.

(** C51.  Queries, conditions and assignments that are equal have the same text.
    Missing: bool, float, Decimal, dict, set; an SQL object beside a str that is its text;
    a mirrored ON; the fields == does not look at (each with a witness in C51_same_text_refuted
    or below). *)
Theorem C51_equal_text_partial : forall E a b, by_parts a \/ by_parts b ->
  distinguishable E a b -> same_rest a b -> py_eq E a b = Ok true -> text E a = text E b.
Proof. exact equal_text. Qed.
Print Assumptions C51_equal_text_partial.

(** C19.  where(...) with column/value pairs in any form: of every condition asked for, one
    with the same text is in the clause. *)
Theorem C19_same_text_partial : forall E k ps args kwds ps' asked, keys_ok args kwds ->
  (args = [] \/ forallb is_conds args = false) ->
  pair_args args kwds asked -> conds_where (pure_world E) k ps args kwds = (ps', Ok tt) ->
  forall c v x, In (c, v) asked -> mk_condition k c v = Ok x ->
  (forall p, In p ps' -> distinguishable E p x) -> exists p, In p ps' /\ text E p = text E x.
Proof. exact dropped_same_text. Qed.
Print Assumptions C19_same_text_partial.

(** A str equals every SQL object with that text: where(a=C('NOW()')) and where(a='NOW()') are
    equal, and the second condition is lost after the first. *)
Theorem C19_objects_refuted : exists ps x,
  conds_where (demoW BSql) KWhere [] [vs "a"; VCustom (lit "NOW()")] [] = (ps, Ok tt) /\
  conds_where (demoW BSql) KWhere ps [vs "a"; vs "NOW()"] [] = (ps, Ok tt) /\
  conds_where (demoW BSql) KWhere [] [vs "a"; vs "NOW()"] [] = ([x], Ok tt) /\
  text (demo BSql) (VConds ps) = Ok (lit """a"" = NOW()") /\ text (demo BSql) x = Ok (lit """a"" = 'NOW()'") /\
  py_eq (demo BSql) (VConds ps) (VConds [x]) = Ok true.
Proof.
  exists [VCond KWhere (vs "a") REq (VCustom (lit "NOW()"))], (VCond KWhere (vs "a") REq (vs "NOW()")).
  repeat split; vm_compute; reflexivity.
Qed.
Print Assumptions C19_objects_refuted.

(** Two selects with different objects in the same places. *)
Definition run51 ops := calls sel_step empty_select (map (fun op => (demoW BMySql, op)) ops).
Definition fun51 : val := VAgg FCount false (vs "id").
Definition raw51 : val := VCustom (lit "COUNT(`id`)").
Definition val51 : val := VSqlV (vs "x").
Definition not51 : val := VCustom (lit "'x'").
Definition left51 : val := VSelect (run51 [SColumns [fun51] []; SFrom [vs "t"] []; SWhere [vs "a"; val51] []]).
Definition right51 : val := VSelect (run51 [SColumns [raw51] []; SFrom [vs "t"] []; SWhere [vs "a"; not51] []]).
Definition cond51 (v : val) : val := VCond KWhere (vs "a") REq v.
Definition parts51 : list val := [left51; right51; fun51; raw51; vs "t"; VNone; vs "a"; val51; not51; cond51 val51; cond51 not51].
Lemma parts51_all : forall u, within u left51 \/ within u right51 -> In u parts51.
Proof.
  intros u [W|W]; [apply (within_list parts51 left51)|apply (within_list parts51 right51)]; try exact W; try (cbn; tauto);
    intros w I T x J; cbn in I;
    repeat (destruct I as [<-|I]; [vm_compute in T, J; try discriminate T; repeat (destruct J as [<-|J]; [vm_compute; tauto|]); destruct J|]); destruct I.
Qed.
Lemma distinguishable51 : distinguishable (demo BMySql) left51 right51.
Proof.
  assert (D : forall u w, In u parts51 -> In w parts51 -> ~ confusable (demo BMySql) u w).
  { intros u w I J [Tu [Tw [t [R K]]]]. cbn in I, J.
    repeat (destruct I as [<-|I]; [try discriminate Tu; clear Tu; vm_compute in R; injection R as <-|]); try destruct I;
      repeat (destruct J as [<-|J]; [solve [discriminate Tw|destruct K as [K|[K1 K2]]; [discriminate K|vm_compute in K1, K2; discriminate]]|]); destruct J. }
  split; [|split].
  - intros v [[T [x [I W]]]|[T [x [I W]]]]; (assert (P : In v parts51) by (apply parts51_all; eauto using wi_child));
      cbn in P; repeat (destruct P as [<-|P]; [exact Logic.I|]); destruct P.
  - intros u w U V. apply D; now apply parts51_all.
  - intros p q U V [c [k [s [v [k' [-> _]]]]]]. apply parts51_all in U. cbn in U.
    repeat (destruct U as [U|U]; [discriminate U|]). destruct U.
Qed.
Example C51_equal_example : distinguishable (demo BMySql) left51 right51 /\ left51 <> right51 /\
  py_eq (demo BMySql) left51 right51 = Ok true /\
  text (demo BMySql) left51 = Ok (lit "SELECT COUNT(`id`) FROM `t` WHERE `a` = 'x'") /\
  text (demo BMySql) right51 = Ok (lit "SELECT COUNT(`id`) FROM `t` WHERE `a` = 'x'").
Proof. split; [exact distinguishable51|]. split; [discriminate|]. vm_compute. auto. Qed.
(** where(a=V('x')) and then where(a=C("'x'")): dropped, and the text is there. *)
Example C19_objects_example : conds_where (demoW BMySql) KWhere [cond51 val51] [vs "a"; not51] [] = ([cond51 val51], Ok tt) /\
  mk_condition KWhere (vs "a") not51 = Ok (cond51 not51) /\
  distinguishable (demo BMySql) (cond51 val51) (cond51 not51) /\
  text (demo BMySql) (cond51 val51) = text (demo BMySql) (cond51 not51).
Proof.
  split; [vm_compute; reflexivity|]. split; [reflexivity|]. split; [|vm_compute; reflexivity].
  assert (Wl : forall u, within u (cond51 val51) -> within u left51) by (intros u W; refine (wi_child _ (cond51 val51) _ _ _ W); [reflexivity|vm_compute; tauto]).
  assert (Wr : forall u, within u (cond51 not51) -> within u right51) by (intros u W; refine (wi_child _ (cond51 not51) _ _ _ W); [reflexivity|vm_compute; tauto]).
  destruct distinguishable51 as [D1 [D2 D3]]. split; [|split].
  - intros v [[T [x [I W]]]|[T [x [I W]]]]; apply D1; [left|right]; (split; [reflexivity|]);
      [exists (cond51 val51)|exists (cond51 not51)]; (split; [vm_compute; tauto|]); exact (wi_child _ _ _ T I W).
  - intros u w [U|U] [V|V]; apply D2; auto.
  - intros p q [U|U] [V|V]; apply D3; auto.
Qed.
