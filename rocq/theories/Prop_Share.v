(** C83, C84 and the positive half of C37: queries built of objects that are shared. *)
From Verif Require Import Base NumFmt Value Backend Eq Render ParseArgs Build Queries Demo Heap SpecHeap HeapBuild SpecShare PfUse ShareDemo.
Open Scope string_scope.
Open Scope list_scope.
Open Scope nat_scope.

(** C83: in every program, a method called with objects leaves the query standing for
    what the method makes of the values the objects stand for, and raises the same. *)
Theorem C83_call : forall h H qs W q c v d h' o,
  reached h H qs -> In (q, of_kind c) qs -> Forall (given H) (call_refs c) ->
  stands h (RPtr q) v -> call_stands h c d ->
  plain h c -> apart h q c -> unlooped h q -> loose h q c ->
  call W q c h = (h', o) ->
  stands h' (RPtr q) (fst (called W v d)) /\ o = snd (called W v d).
Proof. exact call_refines. Qed.
Print Assumptions C83_call.

(** Select(), Insert(), Update(), Delete() create empty queries that nothing refers to;
    what the program had is as before. *)
Theorem C83_new : forall h H qs k h' q,
  reached h H qs -> new_of k h = (h', Ok q) ->
  stands h' (RPtr q) (empty_of k) /\ (forall p, ~ refers h' p (RPtr q)) /\ (forall p, p < List.length h -> get h' p = get h p) /\
  (forall r, given H r -> ~ reach h' r (RPtr q) /\ forall v, stands h' r v <-> stands h r v).
Proof. exact new_alone. Qed.
Print Assumptions C83_new.

(** A chain of calls on a new query, with anything the program has: the objects may be
    shared by the calls, by each other and with other queries. *)
Theorem C83_chain : forall h H qs W k h1 q cs ds h' o,
  reached h H qs -> new_of k h = (h1, Ok q) ->
  Forall (fun c => of_kind c = k /\ Forall (given H) (call_refs c) /\ plain h c /\ forall d, ~ loses h c d) cs ->
  Forall2 (call_stands h) cs ds -> chain W q cs h1 = (h', o) ->
  stands h' (RPtr q) (fst (chained W (empty_of k) ds)) /\ o = snd (chained W (empty_of k) ds).
Proof. exact new_chain. Qed.
Print Assumptions C83_chain.

(** The same for a query that has been used before. *)
Theorem C83_chain_more : forall h H qs W q k cs ds v h' o,
  reached h H qs -> In (q, k) qs ->
  Forall (fun c => of_kind c = k /\ Forall (given H) (call_refs c) /\ plain h c /\ apart h q c /\ forall d, ~ loses h c d) cs ->
  stands h (RPtr q) v -> unlooped h q -> Forall2 (call_stands h) cs ds -> chain W q cs h = (h', o) ->
  stands h' (RPtr q) (fst (chained W v ds)) /\ o = snd (chained W v ds).
Proof. exact chain_refines. Qed.
Print Assumptions C83_chain_more.

(** C84: a call changes nothing that does not contain the query itself or something the
    call uses up: not one object that can be reached is written to. *)
Theorem C84_only_the_query : forall h H qs W q c h' o r,
  reached h H qs -> In (q, of_kind c) qs -> Forall (given H) (call_refs c) -> call W q c h = (h', o) ->
  given H r -> (forall p, reach h r (RPtr p) -> p <> q /\ ~ used_up h c p) ->
  (forall p, reach h r (RPtr p) -> get h' p = get h p) /\ forall v, stands h' r v <-> stands h r v.
Proof. exact call_isolated. Qed.
Print Assumptions C84_only_the_query.

(** C37 in full: no call changes an argument (false: C37_refuted).  What holds: an argument
    is as it was unless it contains the query, a generator or the dictionary given to join. *)
Theorem C37_arguments_partial : forall h H qs W q c h' o r,
  reached h H qs -> In (q, of_kind c) qs -> Forall (given H) (call_refs c) -> call W q c h = (h', o) ->
  In r (call_refs c) -> ~ reach h r (RPtr q) -> (forall p, reach h r (RPtr p) -> ~ used_up h c p) ->
  (forall p, reach h r (RPtr p) -> get h' p = get h p) /\ forall v, stands h' r v <-> stands h r v.
Proof. exact arguments_stay. Qed.
Print Assumptions C37_arguments_partial.

(** ** Examples *)

(** main.where('x', sub): [sub] is a query and contains the list [ids], which the program
    still has.  All hypotheses of C83_call hold. *)
Definition vmain : val := Eval vm_compute in match view hF (RPtr main) with Ok v => v | Err _ => VNone end.
Definition vsub : val := Eval vm_compute in match view hF (RPtr sub) with Ok v => v | Err _ => VNone end.
Definition nested_values : vcall := VSel (SWhere [vs "x"; vsub] []).
Example C83_ok : reached hF H0 Q0 /\ In (main, of_kind nested) Q0 /\ Forall (given H0) (call_refs nested) /\
  stands hF (RPtr main) vmain /\ call_stands hF nested nested_values /\ plain hF nested /\ apart hF main nested /\ unlooped hF main /\ loose hF main nested /\
  call W0 main nested hF = (hG, Ok tt).
Proof.
  split; [exact reachedF|]. split; [left; reflexivity|]. split; [repeat (constructor; [first [left; eexists; reflexivity|right; cbn; tauto]|]); constructor|].
  split; [apply stands_checked; vm_compute; reflexivity|]. split; [split; [|constructor]; repeat (constructor; [apply stands_checked; vm_compute; reflexivity|]); constructor|].
  split; [apply plain_checked; vm_compute; reflexivity|]. split; [apply apart_checked; vm_compute; reflexivity|]. split; [apply unlooped_checked; vm_compute; reflexivity|].
  split; [intros d [E _]; discriminate|vm_compute; reflexivity].
Qed.
Example C83_example : text_at hG (RPtr main) = Some (lit "SELECT `a` FROM `t` WHERE `x` = (SELECT `id` FROM `u` WHERE `k` IN (1, 2))") /\
  snd (called W0 vmain nested_values) = Ok tt /\ view hG (RPtr main) = Ok (fst (called W0 vmain nested_values)).
Proof. repeat split; vm_compute; reflexivity. Qed.
(** main.join(old): the dictionary has one entry; it loses it. *)
Definition joining : hcall := HSel (HSJoin JLeft old).
Definition hJ : heap := Eval vm_compute in run (call W0 main joining) hG.
Example C83_example_join : loose hG main joining /\ apart hG main joining /\ unlooped hG main /\ call W0 main joining hG = (hJ, Ok tt) /\
  text_at hJ (RPtr main) = Some (lit "SELECT `a` FROM `t` LEFT JOIN `t` AS `old` WHERE `x` = (SELECT `id` FROM `u` WHERE `k` IN (1, 2))") /\
  view hG old = Ok (VDict [(vs "t", vs "old")]) /\ view hJ old = Ok (VDict []).
Proof.
  split; [|split; [apply apart_checked; vm_compute; reflexivity|split; [apply unlooped_checked; vm_compute; reflexivity|repeat split; vm_compute; reflexivity]]].
  intros d [E _]. injection E as <-. split; [apply avoids_checked; vm_compute; reflexivity|]. intros r (k & l & a & G & I). vm_compute in G. injection G as <- <-. destruct I as [I|[I|[]]]; injection I as <- <-; intros R; inversion R.
Qed.
(** The chain that makes [sub]: the list is shared with the program. *)
Example C83_example_chain : reached hB [old; ids] [] /\ new_of QSelect hB = (hC, Ok sub) /\
  Forall (fun c => of_kind c = QSelect /\ Forall (given [old; ids]) (call_refs c) /\ plain hB c /\ forall d, ~ loses hB c d) cs_sub /\
  Forall2 (call_stands hB) cs_sub [VSel (SColumns [vs "id"] []); VSel (SFrom [vs "u"] []); VSel (SWhere [vs "k"; VSeq KList [VInt 1; VInt 2]] [])] /\
  chain W0 sub cs_sub hC = (hD, Ok tt) /\ text_at hD (RPtr sub) = Some (lit "SELECT `id` FROM `u` WHERE `k` IN (1, 2)").
Proof.
  split; [exact reachedB|]. split; [vm_compute; reflexivity|]. split; [|split; [|split; vm_compute; reflexivity]].
  - repeat (constructor; [split; [reflexivity|]; split; [repeat (constructor; [first [left; eexists; reflexivity|right; cbn; tauto]|]); constructor|];
      split; [apply plain_checked; vm_compute; reflexivity|intros d [E _]; discriminate]|]). constructor.
  - repeat (constructor; [split; [|constructor]; repeat (constructor; [apply stands_checked; vm_compute; reflexivity|]); constructor|]). constructor.
Qed.
(** C84: main.where('x', sub) leaves [sub] and [ids] alone. *)
Example C84_ok : reached hF H0 Q0 /\ given H0 (RPtr sub) /\ (forall p, reach hF (RPtr sub) (RPtr p) -> p <> main /\ ~ used_up hF nested p).
Proof.
  split; [exact reachedF|]. split; [right; cbn; tauto|]. intros p R. split; [intros ->; revert R; apply avoids_checked; vm_compute; reflexivity|].
  intros [[K _]|[E _]]; [|discriminate]. assert (X : negb (is_gen hF p) = true) by (eapply (reach_checked hF (fun p => negb (is_gen hF p))); [|exact R]; vm_compute; reflexivity).
  unfold is_gen in X. unfold kind_of in K. destruct (get hF p) as [[k l]|]; [|discriminate]. injection K as ->. discriminate.
Qed.
(** The hypothesis is needed: [main] contains [sub], so sub.limit(1) changes [main]. *)
Definition limiting : hcall := HSel (HSLimit (aint 1) r_none).
Definition hL : heap := Eval vm_compute in run (call W0 sub limiting) hG.
Example C84_shared : call W0 sub limiting hG = (hL, Ok tt) /\ reach hG (RPtr main) (RPtr sub) /\
  text_at hG (RPtr main) = Some (lit "SELECT `a` FROM `t` WHERE `x` = (SELECT `id` FROM `u` WHERE `k` IN (1, 2))") /\
  text_at hL (RPtr main) = Some (lit "SELECT `a` FROM `t` WHERE `x` = (SELECT `id` FROM `u` WHERE `k` IN (1, 2) LIMIT 1)").
Proof. split; [vm_compute; reflexivity|]. split; [|split; vm_compute; reflexivity]. apply spread_reach with (n := 8). vm_compute. tauto. Qed.
