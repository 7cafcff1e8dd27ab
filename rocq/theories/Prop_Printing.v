(** C89: printing queries of a program. *)
From Coq Require Import Lia.
From Verif Require Import Base NumFmt Value Backend Eq Render ParseArgs Build Queries Demo Heap SpecHeap HeapBuild HeapShow SpecEffects SpecShare SpecSchedule SpecPrinting PfEffects PfUse PfPrinting ShareDemo.
Open Scope string_scope.
Open Scope list_scope.
Open Scope nat_scope.

(** Whatever queries of a program are printed, however often, every object of the program
    prints afterwards what it printed before. *)
Theorem C89_same_text_partial : forall E H qs s h h' os r v,
  reached h H qs -> printing qs s -> sound h s -> given H r -> stands h r v -> plainly_joined v ->
  scheduled (pure_world E) s h = (h', os) ->
  exists v', stands h' r v' /\ touches E v v' /\ text E v' = text E v.
Proof. exact prints_text. Qed.
Print Assumptions C89_same_text_partial.

(** An object that contains none of the queries printed is the same, with everything in it. *)
Theorem C89_elsewhere : forall W H qs s h h' os r,
  reached h H qs -> printing qs s -> given H r -> (forall q, In q (map fst s) -> ~ reach h r (RPtr q)) ->
  scheduled W s h = (h', os) ->
  (forall p, reach h r (RPtr p) -> get h' p = get h p) /\ forall v, stands h' r v <-> stands h r v.
Proof. exact prints_elsewhere. Qed.
Print Assumptions C89_elsewhere.

(** A query that is not inside itself is not inside itself after any query is printed. *)
Theorem C89_no_cycles : forall h H qs W q k refs n h' o q2 k2,
  reached h H qs -> In (q, k) qs -> In (q2, k2) qs -> call W q (HShow k refs n) h = (h', o) -> unlooped h q2 -> unlooped h' q2.
Proof. exact show_unlooped. Qed.
Print Assumptions C89_no_cycles.

(** ** Example: sub gets the same join twice and is inside main; both are printed. *)
Definition twice : list hcall :=
  [HSel (HSJoin JInner (astr "w")); HSel (HSOn [astr "u.a"; astr "w.b"] []); HSel (HSJoin JInner (astr "w")); HSel (HSOn [astr "u.a"; astr "w.b"] [])].
Definition hJ : heap := Eval vm_compute in run (chain W0 sub twice) hG.
Definition both : list (addr * hcall) := [(main, HShow QSelect false 0); (sub, HShow QSelect false 0)].
Definition hP : heap := Eval vm_compute in fst (scheduled W0 both hJ).
Definition main_text : string := "SELECT `a` FROM `t` WHERE `x` = (SELECT `id` FROM `u` JOIN `w` ON `u`.`a` = `w`.`b` WHERE `k` IN (1, 2))".
Lemma reachedJ : reached hJ H0 Q0.
Proof. eapply (chain_reached W0 sub twice hG); [exact reachedG|all_given|vm_compute; reflexivity]. Qed.
Local Opaque reach_ok.
Lemma unlooped_found : forall h q, reach_ok h (fun p => Nat.eqb p q || reach_ok h (fun x => negb (Nat.eqb x q)) (RPtr p)) (RPtr q) = true -> unlooped h q.
Proof.
  intros h q C p N R. pose proof (reach_checked _ _ _ _ C R) as X. cbn beta in X. apply orb_prop in X. destruct X as [X|X]; [apply Nat.eqb_eq in X; contradiction|].
  exact (avoids_checked _ _ _ X).
Qed.
Local Transparent reach_ok.
Lemma soundJ : sound hJ both.
Proof. intros q [<-|[<-|[]]]; apply unlooped_found; vm_compute; reflexivity. Qed.
Ltac listed H := simpl in H; repeat (destruct H as [H|H]); try contradiction; try (subst; simpl).
Ltac simply := constructor; [let H := fresh in intros ? H; listed H; lia|let H := fresh in intros ? H; listed H; simply].
Example C89_example : exists v v', reached hJ H0 Q0 /\ printing Q0 both /\ sound hJ both /\ given H0 (RPtr main) /\
  stands hJ (RPtr main) v /\ plainly_joined v /\ fst (scheduled (pure_world (demo BMySql)) both hJ) = hP /\
  stands hP (RPtr main) v' /\ v' <> v /\ text (demo BMySql) v' = Ok (lit main_text) /\ text (demo BMySql) v = Ok (lit main_text).
Proof.
  destruct (view hJ (RPtr main)) as [v|e] eqn:V; [|vm_compute in V; discriminate]. destruct (view hP (RPtr main)) as [v'|e] eqn:V'; [|vm_compute in V'; discriminate].
  exists v, v'. split; [exact reachedJ|]. split; [repeat (constructor; [do 3 eexists; split; [reflexivity|cbn; tauto]|]); constructor|]. split; [exact soundJ|]. split; [right; cbn; tauto|].
  split; [apply stands_checked; exact V|]. pose proof V as V0. pose proof V' as V0'. vm_compute in V, V'. injection V as <-. injection V' as <-.
  split; [|split; [vm_compute; reflexivity|split; [apply stands_checked; exact V0'|split; [discriminate|split; vm_compute; reflexivity]]]].
  repeat (constructor; [let H := fresh in intros H; first [solve [destruct H]|clear H; simply]|let t := fresh in let x := fresh in let H := fresh in let K := fresh in intros t x H K; listed H; listed K; simply|
    let x := fresh in let H := fresh in intros x H; listed H]).
Qed.
(** The list [ids] and the dictionary are not touched. *)
Example C89_elsewhere_example : (forall q, In q (map fst both) -> ~ reach hJ ids (RPtr q)) /\ get hP 0 = get hJ 0 /\ get hP 1 = get hJ 1.
Proof. split; [intros q [<-|[<-|[]]]; apply avoids_checked; vm_compute; reflexivity|split; vm_compute; reflexivity]. Qed.

(** ** What does not hold: printing a query may change what later calls on a query inside it
    mean.  Here main alone is printed by the program, and sub.on(...) is called afterwards. *)
Definition later : hcall := HSel (HSOn [astr "u.c"; astr "w.d"] []).
Theorem C89_later_calls_refuted : exists h H qs s q c h' os,
  reached h H qs /\ printing qs s /\ sound h s /\ In (q, of_kind c) qs /\ Forall (given H) (call_refs c) /\ scheduled (pure_world (demo BMySql)) s h = (h', os) /\
  text_at h' (RPtr q) = text_at h (RPtr q) /\
  text_at (fst (call (pure_world (demo BMySql)) q c h)) (RPtr q) = Some (lit "SELECT `id` FROM `u` JOIN `w` ON `u`.`a` = `w`.`b` JOIN `w` ON `u`.`a` = `w`.`b` AND `u`.`c` = `w`.`d` WHERE `k` IN (1, 2)") /\
  text_at (fst (call (pure_world (demo BMySql)) q c h')) (RPtr q) = Some (lit "SELECT `id` FROM `u` JOIN `w` ON `u`.`a` = `w`.`b` AND `u`.`c` = `w`.`d` WHERE `k` IN (1, 2)").
Proof.
  exists hJ, H0, Q0, both, sub, later, hP, (snd (scheduled (pure_world (demo BMySql)) both hJ)).
  split; [exact reachedJ|]. split; [repeat (constructor; [do 3 eexists; split; [reflexivity|cbn; tauto]|]); constructor|]. split; [exact soundJ|]. split; [cbn; tauto|].
  split; [cbn; repeat (constructor; [left; eexists; reflexivity|]); constructor|]. split; [vm_compute; reflexivity|]. split; [vm_compute; reflexivity|]. split; vm_compute; reflexivity.
Qed.
Print Assumptions C89_later_calls_refuted.
