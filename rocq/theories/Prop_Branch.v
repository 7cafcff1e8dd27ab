(** C87: copy() in the middle of a program, and the two queries afterwards. *)
From Verif Require Import Base NumFmt Value Backend Eq Render ParseArgs Build Queries Demo Heap SpecHeap HeapBuild SpecShare SpecSchedule PfUse PfSchedule PfBranch ShareDemo HeapDemo Prop_Schedule.
Open Scope string_scope.
Open Scope list_scope.
Open Scope nat_scope.

(** The copy says what the original says, is a new object, and everything the program held
    says what it said. *)
Theorem C87_copy : forall h H qs q k h' q', reached h H qs -> In (q, k) qs -> well_formed h -> deepcopy h q = Ok (h', q') ->
  (List.length h <= q' /\ q' < List.length h') /\
  (forall v, stands h' (RPtr q') v <-> stands h (RPtr q) v) /\
  (forall r v, given H r -> (stands h' r v <-> stands h r v)).
Proof.
  exact (fun h H qs q k h' q' R I WF D => Logic.conj (copy_new h H qs q k h' q' R I WF D) (Logic.conj (copy_stands h H qs q k h' q' R I WF D) (others_stand h H qs q k h' q' R I WF D))).
Qed.
Print Assumptions C87_copy.

(** Whatever the program calls afterwards, on whatever queries, the copy ends up as its own
    calls alone make it, starting from what the original said.  Nothing is asked of the
    original but that it is not inside itself: the queries, lists and dicts inside it may be
    used and changed. *)
Theorem C87_branch : forall h H qs q k h' q' W s v ds h2 os,
  reached h H qs -> In (q, k) qs -> well_formed h -> deepcopy h q = Ok (h', q') -> unlooped h q -> stands h (RPtr q) v ->
  Forall (callable (RPtr q' :: H) ((q', k) :: qs)) s -> (forall c r, In (q', c) s -> In r (call_refs c) -> quiet h' s q' r) ->
  Forall2 (call_stands h') (of_query q' s) ds -> scheduled W s h' = (h2, os) ->
  stands h2 (RPtr q') (fst (by_itself W v ds)) /\ of_query q' os = snd (by_itself W v ds).
Proof. exact copy_branch. Qed.
Print Assumptions C87_branch.

(** And every query [r] of the program, the original among them, ends up as its own calls
    alone make it: calls of the copy are no more to it than calls of a stranger. *)
Theorem C87_original : forall h H qs q k h' q' W s r t v ds h2 os,
  reached h H qs -> In (q, k) qs -> well_formed h -> deepcopy h q = Ok (h', q') -> In (r, t) qs -> separate h s r -> stands h (RPtr r) v ->
  Forall (callable (RPtr q' :: H) ((q', k) :: qs)) s -> (forall c x, In (r, c) s -> In x (call_refs c) -> quiet h' s r x) ->
  Forall2 (call_stands h') (of_query r s) ds -> scheduled W s h' = (h2, os) ->
  stands h2 (RPtr r) (fst (by_itself W v ds)) /\ of_query r os = snd (by_itself W v ds).
Proof. exact original_branch. Qed.
Print Assumptions C87_original.

(** ** Example: [main] contains the query [sub]; after main.copy() the program calls [main],
    [sub] and the copy in turn.  The call of [sub] changes [main] and not the copy. *)
Definition twin : addr := Eval vm_compute in match deepcopy hG main with Ok (_, q) => q | Err _ => 0 end.
Definition hK : heap := Eval vm_compute in match deepcopy hG main with Ok (h, _) => h | Err _ => [] end.
Definition v_G : val := Eval vm_compute in match view hG (RPtr main) with Ok v => v | Err _ => VNone end.
Definition after_copy : list (addr * hcall) :=
  [(twin, HSel (HSWhere [astr "y"; ids] [])); (sub, HSel (HSLimit (aint 1) r_none)); (main, HSel (HSOffset (aint 5)));
   (twin, HSel (HSLimit (astr "x") r_none)); (twin, HSel (HSOrderBy [astr "a"] []))].
Definition twin_values : list vcall := [VSel (SWhere [vs "y"; VSeq KList [VInt 1; VInt 2]] []); VSel (SLimit (vs "x") VNone); VSel (SOrderBy [vs "a"] [])].
Definition hZ : heap := Eval vm_compute in fst (scheduled W0 after_copy hK).
Definition quietly_at (h : heap) (q : addr) (s : list (addr * hcall)) : bool :=
  forallb (fun x => negb (Nat.eqb (fst x) q) || forallb (reach_ok h (fun p => negb (Nat.eqb p q) && untouchedb h s p)) (call_refs (snd x))) s.
Local Opaque reach_ok.
Lemma quietly_at_quiet : forall h q s c r, quietly_at h q s = true -> In (q, c) s -> In r (call_refs c) -> quiet h s q r.
Proof.
  intros h q s c r X I J. unfold quietly_at in X. rewrite forallb_forall in X. specialize (X _ I). cbn [fst snd] in X. rewrite Nat.eqb_refl in X. cbn [negb orb] in X.
  rewrite forallb_forall in X. apply quiet_checked. exact (X _ J).
Qed.
Local Transparent reach_ok.
Example C87_ok : reached hG H0 Q0 /\ In (main, QSelect) Q0 /\ well_formed hG /\ deepcopy hG main = Ok (hK, twin) /\ unlooped hG main /\ stands hG (RPtr main) v_G /\
  Forall (callable (RPtr twin :: H0) ((twin, QSelect) :: Q0)) after_copy /\
  (forall c r, In (twin, c) after_copy -> In r (call_refs c) -> quiet hK after_copy twin r) /\
  Forall2 (call_stands hK) (of_query twin after_copy) twin_values.
Proof.
  split; [exact reachedG|]. split; [left; reflexivity|]. split; [apply heap_ok_wf; vm_compute; reflexivity|]. split; [vm_compute; reflexivity|].
  split; [apply unlooped_checked; vm_compute; reflexivity|]. split; [apply stands_checked; vm_compute; reflexivity|]. split; [all_given|].
  split; [intros c r; apply quietly_at_quiet; vm_compute; reflexivity|].
  repeat (constructor; [split; first [apply stands_checked; vm_compute; reflexivity|repeat (constructor; [apply stands_checked; vm_compute; reflexivity|]); constructor]|]). constructor.
Qed.
Example C87_example : scheduled W0 after_copy hK = (hZ, [(twin, Ok tt); (sub, Ok tt); (main, Ok tt); (twin, Err EInvalidArgument); (twin, Ok tt)]) /\
  text_at hG (RPtr main) = Some (lit "SELECT `a` FROM `t` WHERE `x` = (SELECT `id` FROM `u` WHERE `k` IN (1, 2))") /\
  text_at hZ (RPtr twin) = Some (lit "SELECT `a` FROM `t` WHERE `x` = (SELECT `id` FROM `u` WHERE `k` IN (1, 2)) AND `y` IN (1, 2) ORDER BY `a`") /\
  text_at hZ (RPtr main) = Some (lit "SELECT `a` FROM `t` WHERE `x` = (SELECT `id` FROM `u` WHERE `k` IN (1, 2) LIMIT 1) OFFSET 5").
Proof. repeat split; vm_compute; reflexivity. Qed.
(** And [sub], a query inside the original, is not disturbed by calls of the copy. *)
Definition sub_values : list vcall := [VSel (SLimit (VInt 1) VNone)].
Definition v_sub : val := Eval vm_compute in match view hG (RPtr sub) with Ok v => v | Err _ => VNone end.
Local Opaque reach_ok.
Lemma separate_inner : forall h s q, reach_ok h (fun p => Nat.eqb p q || (untouchedb h s p && reach_ok h (fun x => negb (Nat.eqb x q)) (RPtr p))) (RPtr q) = true -> separate h s q.
Proof.
  intros h s q C. assert (Y : forall p, p <> q -> reach h (RPtr q) (RPtr p) -> untouchedb h s p = true /\ reach_ok h (fun x => negb (Nat.eqb x q)) (RPtr p) = true).
  { intros p N R. pose proof (reach_checked _ _ _ _ C R) as X. cbn beta in X. apply orb_prop in X. destruct X as [X|X]; [apply Nat.eqb_eq in X; contradiction|apply andb_prop; exact X]. }
  split.
  - intros p N A B. destruct (Y p N A) as [_ X]. exact (avoids_checked _ _ _ X B).
  - intros p N A. destruct (Y p N A) as [X _]. apply untouched_checked. exact X.
Qed.
Local Transparent reach_ok.
Example C87_original_ok : In (sub, QSelect) Q0 /\ separate hG after_copy sub /\ stands hG (RPtr sub) v_sub /\
  (forall c r, In (sub, c) after_copy -> In r (call_refs c) -> quiet hK after_copy sub r) /\ Forall2 (call_stands hK) (of_query sub after_copy) sub_values.
Proof.
  split; [right; left; reflexivity|]. split; [apply separate_inner; vm_compute; reflexivity|]. split; [apply stands_checked; vm_compute; reflexivity|].
  split; [intros c r; apply quietly_at_quiet; vm_compute; reflexivity|].
  repeat (constructor; [split; first [apply stands_checked; vm_compute; reflexivity|repeat (constructor; [apply stands_checked; vm_compute; reflexivity|]); constructor]|]). constructor.
Qed.
