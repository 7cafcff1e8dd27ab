(** C86: calls on several queries of one program, in any order. *)
From Verif Require Import Base NumFmt Value Backend Eq Render ParseArgs Build Queries Demo Heap SpecHeap HeapBuild SpecShare SpecSchedule PfUse PfSchedule ShareDemo.
Open Scope string_scope.
Open Scope list_scope.
Open Scope nat_scope.

(** Whatever other queries of the program are called in between, and however often, a query
    ends up as its own calls alone make it, and its own calls raise what they raise alone. *)
Theorem C86_schedule : forall H qs W q k s h ds v h' os,
  reached h H qs -> In (q, k) qs -> Forall (callable H qs) s ->
  separate h s q -> (forall c r, In (q, c) s -> In r (call_refs c) -> quiet h s q r) ->
  stands h (RPtr q) v -> Forall2 (call_stands h) (of_query q s) ds -> scheduled W s h = (h', os) ->
  stands h' (RPtr q) (fst (by_itself W v ds)) /\ of_query q os = snd (by_itself W v ds).
Proof. exact schedule_refines. Qed.
Print Assumptions C86_schedule.

(** So two schedules with the same calls on [q] in the same order lead to the same query. *)
Theorem C86_any_order : forall h H qs W q k s1 s2 ds v h1 os1 h2 os2,
  reached h H qs -> In (q, k) qs -> Forall (callable H qs) s1 -> Forall (callable H qs) s2 ->
  separate h s1 q -> separate h s2 q ->
  (forall c r, In (q, c) s1 -> In r (call_refs c) -> quiet h s1 q r) -> (forall c r, In (q, c) s2 -> In r (call_refs c) -> quiet h s2 q r) ->
  of_query q s1 = of_query q s2 -> stands h (RPtr q) v -> Forall2 (call_stands h) (of_query q s1) ds ->
  scheduled W s1 h = (h1, os1) -> scheduled W s2 h = (h2, os2) ->
  (forall u, stands h1 (RPtr q) u <-> stands h2 (RPtr q) u) /\ of_query q os1 = of_query q os2.
Proof. exact any_order. Qed.
Print Assumptions C86_any_order.

(** A query that is not inside itself is not inside itself after a call with arguments that
    do not contain it. *)
Theorem C86_no_cycles : forall h H qs W q c h' o,
  reached h H qs -> In (q, of_kind c) qs -> call W q c h = (h', o) -> unlooped h q -> apart h q c -> unlooped h' q.
Proof. exact stays_unlooped. Qed.
Print Assumptions C86_no_cycles.

(** ** Examples: two queries take turns; both are given the list [ids], and a call of [sub] raises. *)
Definition untouchedb (h : heap) (s : list (addr * hcall)) (p : addr) : bool :=
  negb (existsb (Nat.eqb p) (map fst s)) && negb (is_gen h p) &&
  forallb (fun x => match join_given (snd x) with Some (RPtr d) => negb (Nat.eqb d p) | _ => true end) s.
Lemma untouched_checked : forall h s p, untouchedb h s p = true -> untouched h s p.
Proof.
  intros h s p C. apply andb_prop in C. destruct C as [C L]. apply andb_prop in C. destruct C as [N G]. split; [|split].
  - intros I. apply negb_true_iff in N. assert (X : existsb (Nat.eqb p) (map fst s) = true) by (apply existsb_exists; exists p; split; [exact I|apply Nat.eqb_refl]). congruence.
  - intros K. unfold is_gen in G. unfold kind_of in K. destruct (get h p) as [[k l]|]; [|discriminate]. injection K as ->. discriminate.
  - intros q c I [JG _]. rewrite forallb_forall in L. specialize (L _ I). cbn in L. rewrite JG, Nat.eqb_refl in L. discriminate.
Qed.
Local Opaque reach_ok.
Lemma separate_checked : forall h s q, unseen_q h q = true -> reach_ok h (fun p => Nat.eqb p q || untouchedb h s p) (RPtr q) = true -> separate h s q.
Proof.
  intros h s q U C. split; [apply unlooped_checked; exact U|]. intros p N R. pose proof (reach_checked _ _ _ _ C R) as X. cbn beta in X. apply orb_prop in X.
  destruct X as [X|X]; [apply Nat.eqb_eq in X; contradiction|apply untouched_checked; exact X].
Qed.
Lemma quiet_checked : forall h s q r, reach_ok h (fun p => negb (Nat.eqb p q) && untouchedb h s p) r = true -> quiet h s q r.
Proof.
  intros h s q r C p R. pose proof (reach_checked _ _ _ _ C R) as X. cbn beta in X. apply andb_prop in X. destruct X as [X Y].
  split; [intros ->; rewrite Nat.eqb_refl in X; discriminate|apply untouched_checked; exact Y].
Qed.
Local Transparent reach_ok.
Definition turns : list (addr * hcall) :=
  [(main, HSel (HSWhere [astr "y"; ids] [])); (sub, HSel (HSLimit (aint 1) r_none)); (sub, HSel (HSOffset (astr "x")));
   (main, HSel (HSOrderBy [astr "a"] [])); (sub, HSel (HSWhere [astr "z"; ids] []))].
Definition in_line : list (addr * hcall) :=
  [(sub, HSel (HSLimit (aint 1) r_none)); (sub, HSel (HSOffset (astr "x"))); (sub, HSel (HSWhere [astr "z"; ids] []));
   (main, HSel (HSWhere [astr "y"; ids] [])); (main, HSel (HSOrderBy [astr "a"] []))].
Definition turn_values : list vcall := [VSel (SWhere [vs "y"; VSeq KList [VInt 1; VInt 2]] []); VSel (SOrderBy [vs "a"] [])].
Definition hT : heap := Eval vm_compute in fst (scheduled W0 turns hF).
Definition hS : heap := Eval vm_compute in fst (scheduled W0 in_line hF).
Definition v_main : val := Eval vm_compute in match view hF (RPtr main) with Ok v => v | Err _ => VNone end.
Definition quietly (s : list (addr * hcall)) : bool :=
  forallb (fun x => negb (Nat.eqb (fst x) main) || forallb (reach_ok hF (fun p => negb (Nat.eqb p main) && untouchedb hF s p)) (call_refs (snd x))) s.
Lemma quietly_quiet : forall s c r, quietly s = true -> In (main, c) s -> In r (call_refs c) -> quiet hF s main r.
Proof.
  intros s c r X I J. unfold quietly in X. rewrite forallb_forall in X. specialize (X _ I). cbn [fst snd] in X. rewrite Nat.eqb_refl in X. cbn [negb orb] in X.
  rewrite forallb_forall in X. apply quiet_checked. exact (X _ J).
Qed.
Example C86_ok : reached hF H0 Q0 /\ In (main, QSelect) Q0 /\ Forall (callable H0 Q0) turns /\ Forall (callable H0 Q0) in_line /\
  separate hF turns main /\ separate hF in_line main /\
  (forall c r, In (main, c) turns -> In r (call_refs c) -> quiet hF turns main r) /\
  (forall c r, In (main, c) in_line -> In r (call_refs c) -> quiet hF in_line main r) /\
  of_query main turns = of_query main in_line /\ stands hF (RPtr main) v_main /\ Forall2 (call_stands hF) (of_query main turns) turn_values.
Proof.
  split; [exact reachedF|]. split; [left; reflexivity|]. split; [all_given|]. split; [all_given|].
  split; [apply separate_checked; vm_compute; reflexivity|]. split; [apply separate_checked; vm_compute; reflexivity|].
  split; [intros c r; apply quietly_quiet; vm_compute; reflexivity|]. split; [intros c r; apply quietly_quiet; vm_compute; reflexivity|].
  split; [reflexivity|]. split; [apply stands_checked; vm_compute; reflexivity|].
  repeat (constructor; [split; [|constructor]; repeat (constructor; [apply stands_checked; vm_compute; reflexivity|]); constructor|]). constructor.
Qed.
Example C86_example : scheduled W0 turns hF = (hT, [(main, Ok tt); (sub, Ok tt); (sub, Err EInvalidArgument); (main, Ok tt); (sub, Ok tt)]) /\
  text_at hT (RPtr main) = Some (lit "SELECT `a` FROM `t` WHERE `y` IN (1, 2) ORDER BY `a`") /\
  text_at hT (RPtr sub) = Some (lit "SELECT `id` FROM `u` WHERE `k` IN (1, 2) AND `z` IN (1, 2) LIMIT 1") /\
  text_at hS (RPtr main) = text_at hT (RPtr main) /\ text_at hS (RPtr sub) = text_at hT (RPtr sub).
Proof. repeat split; vm_compute; reflexivity. Qed.
(** The separation is needed: in [hG] the query [main] contains [sub], and a call of [sub]
    alone changes what [main] says. *)
Definition inside : list (addr * hcall) := [(sub, HSel (HSLimit (aint 1) r_none))].
Example C86_inside : of_query main inside = [] /\ text_at (fst (scheduled W0 inside hG)) (RPtr main) <> text_at hG (RPtr main).
Proof. split; [reflexivity|vm_compute; discriminate]. Qed.
