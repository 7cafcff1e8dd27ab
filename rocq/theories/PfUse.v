(** Lemmas: calls in a program. *)
From Coq Require Import Lia.
From Verif Require Import Base NumFmt Value Backend Eq Render ParseArgs Build Queries Heap SpecHeap PfHeap PfHeapAlike PfHeapFrame PfHeapView HeapBuild SpecShare PfShare PfOwn PfParts PfNewItems PfMethods PfLayout PfOrders PfTables PfJoins PfCells PfConflict PfQueries PfCalls PfReading PfInside PfDictJoin PfNewQuery PfSession.
Open Scope nat_scope.
Local Arguments view : simpl never.

Lemma one_entry_of : forall h d x, one_entry h (RPtr d) = Some x <-> exists l, get h d = Some (MkObj ODict l) /\ pairs_of l = [x].
Proof.
  intros h d x. unfold one_entry, dict_at. split.
  - destruct (get h d) as [[[] l]|]; try discriminate. destruct (pairs_of l) as [|y [|z w]] eqn:E; try discriminate. intros X. injection X as ->. exists l. auto.
  - intros (l & -> & ->). reflexivity.
Qed.
Lemma join_ref : forall c a, join_given c = Some a -> In a (call_refs c).
Proof. intros c b JG. destruct c as [[]|[]|[]|[]|]; cbn in *; try discriminate; injection JG as ->; left; reflexivity. Qed.
Lemma no_loss : forall h c, (forall d, ~ loses h c d) -> eats nothing h c.
Proof.
  intros h c N a JG d -> O. destruct (one_entry h (RPtr d)) as [x|] eqn:E; [|exfalso; apply O; reflexivity]. exfalso. apply (N d). split; [exact JG|].
  apply one_entry_of in E. destruct E as (l & G & P). exists l, x. auto.
Qed.
Lemma plain_gin : forall h c, plain h c -> Forall (gin nothing h) (call_refs c).
Proof. intros h c P. apply Forall_forall. intros r I p R K. exact (P _ _ I R K). Qed.
Lemma apart_avoids : forall h q c, apart h q c -> Forall (avoids h q) (call_refs c).
Proof. intros h q c P. apply Forall_forall. intros r I R. exact (P _ I R). Qed.
Lemma loss_dec : forall h c, (exists d, loses h c d) \/ forall d, ~ loses h c d.
Proof.
  intros h c. destruct (join_given c) as [[a|d]|] eqn:JG.
  - right. intros d [E _]. congruence.
  - destruct (one_entry h (RPtr d)) as [x|] eqn:E.
    + left. exists d. split; [exact JG|]. apply one_entry_of in E. destruct E as (l & G & P). exists l, x. auto.
    + right. intros d' [E' (l & x & G & P)]. assert (d' = d) by congruence. subst d'. assert (X : one_entry h (RPtr d) = Some x) by (apply one_entry_of; eauto). congruence.
  - right. intros d [E _]. congruence.
Qed.
Lemma said_now : forall own h k q v, inv own h -> laid k q own h -> stands h (RPtr q) v -> unlooped h q -> said k q own h v.
Proof.
  intros own h k q v J L S U. apply stands_said; [exact L|exact S|]. intros rs IN. destruct (laid_kind _ _ _ _ L) as [_ O]. exact (unlooped_avoids _ _ _ _ _ O IN U).
Qed.
Lemma call_refines : forall h H qs W q c v d h' o, reached h H qs -> In (q, of_kind c) qs -> Forall (given H) (call_refs c) ->
  stands h (RPtr q) v -> call_stands h c d -> plain h c -> apart h q c -> unlooped h q -> loose h q c -> call W q c h = (h', o) ->
  stands h' (RPtr q) (fst (called W v d)) /\ o = snd (called W v d).
Proof.
  intros h H qs W q c v d h' o R IQ GR SV CS PL AP UN LO CL. destruct (reached_sess _ _ _ R) as (own & J & F & Q). pose proof (Q _ _ IQ) as L.
  assert (OR : Forall (okr own h) (call_refs c)) by (exact (givens_okr _ _ _ _ F GR)). assert (S : said (of_kind c) q own h v) by (exact (said_now _ _ _ _ _ J L SV UN)).
  destruct (loss_dec h c) as [(e & LS)|NL].
  - destruct (LO _ LS) as [NQ NR]. destruct LS as [JG (l & [n a] & G & P)]. destruct (pairs_in l n a) as [[b1 I1] [b2 I2]]; [rewrite P; left; reflexivity|].
    assert (OE : own e = None) by (pose proof (join_ref _ _ JG) as I; rewrite Forall_forall in OR; apply (OR _ I)).
    destruct (call_said_dict W q own h c e l n a d v h' o J S OE JG G P NQ) as (own' & _ & S' & E);
      [apply NR; eapply refers_get; [exact G|exact I1]|apply NR; eapply refers_get; [exact G|exact I2]|exact CS|exact (AP _ (join_ref _ _ JG))|exact CL|].
    split; [exact (said_stands _ _ _ _ _ S')|symmetry; exact E].
  - destruct (call_said W q own h c d v h' o J S OR (plain_gin _ _ PL) (no_loss _ _ NL) CS (apart_avoids _ _ _ AP) CL) as (own' & _ & S' & E).
    split; [exact (said_stands _ _ _ _ _ S')|symmetry; exact E].
Qed.

(** ** Chains *)
Lemma all_stand : forall h h' rs vs, (forall r v, In r rs -> stands h r v -> stands h' r v) -> Forall2 (stands h) rs vs -> Forall2 (stands h') rs vs.
Proof.
  intros h h' rs vs M F. induction F as [|r v rs vs S F IH]; [constructor|]. constructor; [apply M; [left; reflexivity|exact S]|]. apply IH. intros r' v' I. apply M. right. exact I.
Qed.
Lemma kws_stand : forall h h' rs vs, (forall r v, In r (map snd rs) -> stands h r v -> stands h' r v) -> Forall2 (kw_stands h) rs vs -> Forall2 (kw_stands h') rs vs.
Proof.
  intros h h' rs vs M F. induction F as [|r v rs vs [E S] F IH]; [constructor|]. constructor; [split; [exact E|]; apply M; [left; reflexivity|exact S]|]. apply IH. intros r' v' I. apply M. right. exact I.
Qed.
Lemma args_stay : forall h h' a k va vk, (forall r v, In r (a ++ map snd k) -> stands h r v -> stands h' r v) -> args_stand h a k va vk -> args_stand h' a k va vk.
Proof. intros h h' a k va vk M [A B]. split; [eapply all_stand; [|exact A]|eapply kws_stand; [|exact B]]; intros r v I; apply M; apply in_or_app; auto. Qed.
Lemma call_stays : forall h h' c d, (forall r v, In r (call_refs c) -> stands h r v -> stands h' r v) -> call_stands h c d -> call_stands h' c d.
Proof.
  intros h h' [[]|[]|[]|[]|] [[]|[]|[]|[]|] M C; cbn in C; try contradiction; cbn in M |- *; try exact Logic.I; try exact C;
    try (eapply args_stay; [exact M|exact C]); try (eapply all_stand; [exact M|exact C]); try (apply M; [left; reflexivity|exact C]);
    try (destruct C as [-> C]; split; [reflexivity|]; apply M; [left; reflexivity|exact C]);
    destruct C as [C1 C2]; (split; apply M; [left; reflexivity|exact C1|right; left; reflexivity|exact C2]).
Qed.
Lemma one_entry_same : forall h h' d, get h' d = get h d -> one_entry h' (RPtr d) = one_entry h (RPtr d).
Proof. intros h h' d E. unfold one_entry, dict_at. rewrite E. reflexivity. Qed.
Definition ready (own : owner) (h : heap) (q : addr) (c : hcall) : Prop :=
  Forall (okr own h) (call_refs c) /\ Forall (gin nothing h) (call_refs c) /\ eats nothing h c /\ Forall (avoids h q) (call_refs c).
Lemma ready_after : forall own h own' h' q c, inv own h -> after nothing (whole own q) own h own' h' -> ready own h q c -> ready own' h' q c /\ forall d, call_stands h c d -> call_stands h' c d.
Proof.
  intros own h own' h' q c J A (OR & GR & EA & AV). pose proof (in_closed _ _ J) as CL.
  assert (CA : forall r, In r (call_refs c) -> calm nothing (whole own q) h r).
  { intros r I. rewrite Forall_forall in OR, AV. apply avoids_calm; [exact J|apply OR; exact I|apply AV; exact I]. }
  assert (VA : forall r, In r (call_refs c) -> valid h r) by (intros r I; rewrite Forall_forall in OR; eapply okr_valid; apply OR; exact I).
  split; [|intros d; apply call_stays; intros r v I; exact (calm_stands _ _ _ _ _ _ _ _ A CL (CA _ I))]. split; [|split; [|split]].
  - eapply oks_keeps; [apply A|exact OR].
  - rewrite Forall_forall in *. intros r I p R K. apply (GR _ I p); [exact (calm_reach _ _ _ _ _ _ _ _ A CL (VA _ I) (CA _ I) R)|].
    pose proof (calm_reach _ _ _ _ _ _ _ _ A CL (VA _ I) (CA _ I) R) as R0. unfold kind_of in *. rewrite (calm_frame _ _ _ _ _ _ _ A CL (VA _ I) (CA _ I) _ R0) in K. exact K.
  - intros a JG d -> N. apply (EA _ JG d); [reflexivity|]. pose proof (join_ref _ _ JG) as I.
    rewrite (one_entry_same h h' d) in N; [exact N|]. apply (calm_frame _ _ _ _ _ _ _ A CL (VA _ I) (CA _ I)). apply reach_refl.
  - rewrite Forall_forall in *. intros r I R. apply (AV _ I). exact (calm_reach _ _ _ _ _ _ _ _ A CL (VA _ I) (CA _ I) R).
Qed.
Lemma chain_said : forall W q k cs ds own h v h' o, inv own h -> said k q own h v -> Forall (fun c => of_kind c = k) cs -> Forall (ready own h q) cs -> Forall2 (call_stands h) cs ds ->
  chain W q cs h = (h', o) -> exists own', said k q own' h' (fst (chained W v ds)) /\ o = snd (chained W v ds).
Proof.
  intros W q k cs. induction cs as [|c cs IH]; intros ds own h v h' o J S KS RD CS R; inversion CS as [|? d ? ds' C1 C2]; subst.
  - cbn in R. injection R as <- <-. exists own. auto.
  - cbn [chain] in R. unfold hbind in R. destruct (call W q c h) as [h1 o1] eqn:E. inversion KS as [|? ? K1 K2]; subst. inversion RD as [|? ? R1 R2]; subst. destruct R1 as (OR & GR & EA & AV).
    destruct (call_said W q own h c d v h1 o1 J S OR GR EA C1 AV E) as (own1 & A & S1 & E1). cbn [chained]. destruct (called W v d) as [v1 o1'] eqn:EC. cbn [fst snd] in *. subst o1'.
    destruct o1 as [u|e].
    + assert (X : Forall (ready own1 h1 q) cs /\ Forall2 (call_stands h1) cs ds').
      { clear - J A R2 C2. induction C2 as [|c d cs ds C1 C2 IH]; [split; constructor|]. inversion R2 as [|? ? X1 X2]; subst. destruct (IH X2) as [Y1 Y2]. destruct (ready_after _ _ _ _ _ _ J A X1) as [Z1 Z2].
        split; constructor; auto. }
      destruct X as [X1 X2]. apply (IH ds' own1 h1 v1 h' o); [apply A|exact S1|exact K2|exact X1|exact X2|exact R].
    + injection R as <- <-. exists own1. split; [exact S1|reflexivity].
Qed.
Lemma chain_refines : forall h H qs W q k cs ds v h' o, reached h H qs -> In (q, k) qs -> Forall (fun c => of_kind c = k /\ Forall (given H) (call_refs c) /\ plain h c /\ apart h q c /\ forall d, ~ loses h c d) cs ->
  stands h (RPtr q) v -> unlooped h q -> Forall2 (call_stands h) cs ds -> chain W q cs h = (h', o) ->
  stands h' (RPtr q) (fst (chained W v ds)) /\ o = snd (chained W v ds).
Proof.
  intros h H qs W q k cs ds v h' o R IQ FC SV UN CS CH. destruct (reached_sess _ _ _ R) as (own & J & F & Q). pose proof (Q _ _ IQ) as L.
  destruct (chain_said W q k cs ds own h v h' o) as (own' & S' & E); [exact J|exact (said_now _ _ _ _ _ J L SV UN)| | |exact CS|exact CH|].
  - eapply Forall_impl; [|exact FC]. intros c X. apply X.
  - eapply Forall_impl; [|exact FC]. intros c (_ & G & P & A & N). split; [exact (givens_okr _ _ _ _ F G)|]. split; [exact (plain_gin _ _ P)|]. split; [exact (no_loss _ _ N)|exact (apart_avoids _ _ _ A)].
  - split; [exact (said_stands _ _ _ _ _ S')|exact E].
Qed.

(** ** What a call leaves alone *)
Lemma used_usable : forall own h c, inv own h -> Forall (okr own h) (call_refs c) -> usable own h (used_up h c).
Proof.
  intros own h c J OR y [[K _]|[JG (l & x & G & _)]].
  - split; [|left; exact K]. destruct (own y) as [z|] eqn:E; [|reflexivity]. exfalso. apply (in_kind _ _ J _ _ E). rewrite K. reflexivity.
  - pose proof (join_ref _ _ JG) as I. rewrite Forall_forall in OR. destruct (OR _ I) as [_ O]. split; [exact O|]. right. unfold kind_of. rewrite G. reflexivity.
Qed.
Lemma call_isolated : forall h H qs W q c h' o r, reached h H qs -> In (q, of_kind c) qs -> Forall (given H) (call_refs c) -> call W q c h = (h', o) ->
  given H r -> (forall p, reach h r (RPtr p) -> p <> q /\ ~ used_up h c p) ->
  (forall p, reach h r (RPtr p) -> get h' p = get h p) /\ forall v, stands h' r v <-> stands h r v.
Proof.
  intros h H qs W q c h' o r R IQ GR CL GV N. destruct (reached_sess _ _ _ R) as (own & J & F & Q). pose proof (Q _ _ IQ) as L.
  assert (OR : Forall (okr own h) (call_refs c)) by (exact (givens_okr _ _ _ _ F GR)). pose proof (given_okr _ _ _ _ F GV) as OV.
  destruct (call_laid W (used_up h c) q own h c h' o J (used_usable _ _ _ J OR) L OR) as (own' & A & _).
  - apply Forall_forall. intros x I p RP K. left. split; [exact K|]. exists x. auto.
  - intros a JG d -> E. right. split; [exact JG|]. destruct (one_entry h (RPtr d)) as [x|] eqn:X; [|exfalso; apply E; reflexivity]. apply one_entry_of in X. destruct X as (l & G & P). exists l, x. auto.
  - exact CL.
  - assert (CA : calm (used_up h c) (whole own q) h r).
    { intros p RP. destruct (N _ RP) as [NQ NU]. split; [exact NU|]. intros [->|[s E]]; [apply NQ; reflexivity|]. pose proof (private _ _ _ _ _ _ J OV RP E) as RQ. destruct (N _ RQ) as [X _]. apply X. reflexivity. }
    pose proof (calm_frame _ _ _ _ _ _ _ A (in_closed _ _ J) (okr_valid _ _ _ OV) CA) as FR. split; [exact FR|]. intros v. split; intros S.
    + destruct A as (_ & J' & _). eapply stands_frame; [exact (in_closed _ _ J')|exact (stands_valid _ _ _ S)| |exact S]. intros p RP. symmetry. apply FR. exact (reach_frame _ _ _ _ FR RP).
    + eapply stands_frame; [exact (in_closed _ _ J)|exact (stands_valid _ _ _ S)|exact FR|exact S].
Qed.

(** ** New queries *)
Ltac unseen := repeat (constructor; [cbn; repeat (constructor; [cbn; try exact Logic.I; lia|]); constructor|]); constructor.
Definition not_q (q : addr) (r : ref) : Prop := match r with RAtom _ => True | RPtr p => p <> q end.
Lemma new_unseen : forall k h h' q, new_of k h = (h', Ok q) -> exists l, h' = h ++ l /\ List.length h <= q /\ Forall (fun o => Forall (fun a => not_q q (snd a)) (o_refs o)) l.
Proof.
  intros k h h' q R. destruct k; cbn [new_of] in R; [rewrite new_select_is in R|rewrite new_insert_is in R|rewrite new_update_is in R|rewrite new_delete_is in R]; injection R as <- <-; eexists; (split; [reflexivity|]); (split; [lia|]); set (n := List.length h); unseen.
Qed.
Lemma new_alone : forall h H qs k h' q, reached h H qs -> new_of k h = (h', Ok q) ->
  stands h' (RPtr q) (empty_of k) /\ (forall p, ~ refers h' p (RPtr q)) /\ (forall p, p < List.length h -> get h' p = get h p) /\
  (forall r, given H r -> ~ reach h' r (RPtr q) /\ forall v, stands h' r v <-> stands h r v).
Proof.
  intros h H qs k h' q R NW. destruct (reached_sess _ _ _ R) as (own & J & F & Q). destruct (new_said _ _ _ _ _ J NW) as (q' & own' & l & E & -> & LQ & A & S). injection E as <-.
  destruct (new_unseen _ _ _ _ NW) as (l' & E & _ & FL). apply app_inv_head in E. subst l'.
  assert (OLD : forall p, p < List.length h -> get (h ++ l) p = get h p) by (intros p P; apply get_base; exact P).
  split; [exact (said_stands _ _ _ _ _ S)|]. split; [|split; [exact OLD|]].
  - intros p (kd & x & a & G & I). destruct (Nat.lt_ge_cases p (List.length h)) as [P|P].
    + rewrite OLD in G by exact P. assert (q < List.length h) by (eapply (in_closed _ _ J); eapply refers_get; [exact G|exact I]). lia.
    + replace p with (List.length h + (p - List.length h)) in G by lia. rewrite get_add in G. apply nth_error_In in G. rewrite Forall_forall in FL. specialize (FL _ G). rewrite Forall_forall in FL. specialize (FL _ I). apply FL. reflexivity.
  - intros r GV. pose proof (given_okr _ _ _ _ F GV) as OV. pose proof (okr_valid _ _ _ OV) as V.
    assert (FR : forall p, reach h r (RPtr p) -> get (h ++ l) p = get h p) by (intros p RP; apply OLD; exact (reach_valid _ _ _ (in_closed _ _ J) RP V)).
    split.
    + intros RQ. pose proof (reach_frame _ _ _ _ FR RQ) as R0. pose proof (reach_valid _ _ _ (in_closed _ _ J) R0 V) as X. cbn in X. lia.
    + intros v. split; intros SV.
      * destruct A as (_ & J' & _). eapply stands_frame; [exact (in_closed _ _ J')|exact (stands_valid _ _ _ SV)| |exact SV]. intros p RP. symmetry. apply FR. exact (reach_frame _ _ _ _ FR RP).
      * eapply stands_frame; [exact (in_closed _ _ J)|exact (stands_valid _ _ _ SV)|exact FR|exact SV].
Qed.
Lemma reach_last : forall h a b, reach h a b -> a = b \/ exists p, refers h p b.
Proof. intros h a b R. induction R as [r|p r s F R [->|IH]]; [left; reflexivity|right; exists p; exact F|right; exact IH]. Qed.
Lemma unseen_unlooped : forall h q, (forall p, ~ refers h p (RPtr q)) -> unlooped h q.
Proof. intros h q N p D _ R. apply reach_last in R. destruct R as [E|[x F]]; [injection E as ->; apply D; reflexivity|exact (N _ F)]. Qed.

(** A new query and a chain of calls with what the program had before. *)
Lemma new_chain : forall h H qs W k h1 q cs ds h' o, reached h H qs -> new_of k h = (h1, Ok q) ->
  Forall (fun c => of_kind c = k /\ Forall (given H) (call_refs c) /\ plain h c /\ forall d, ~ loses h c d) cs -> Forall2 (call_stands h) cs ds -> chain W q cs h1 = (h', o) ->
  stands h' (RPtr q) (fst (chained W (empty_of k) ds)) /\ o = snd (chained W (empty_of k) ds).
Proof.
  intros h H qs W k h1 q cs ds h' o R NW FC CS CH. destruct (new_alone _ _ _ _ _ _ R NW) as (S & NR & OLD & GV). destruct (reached_sess _ _ _ R) as (own & J & F & _).
  assert (FR : forall r p, given H r -> reach h r (RPtr p) -> get h1 p = get h p).
  { intros r p G RP. apply OLD. pose proof (okr_valid _ _ _ (given_okr _ _ _ _ F G)) as V. exact (reach_valid _ _ _ (in_closed _ _ J) RP V). }
  eapply (chain_refines h1 (RPtr q :: H) ((q, k) :: qs) W q k cs ds); [eapply creates; eauto|left; reflexivity| |exact S|apply unseen_unlooped; exact NR| |exact CH].
  - eapply Forall_impl; [|exact FC]. intros c (K & G & P & N). split; [exact K|]. rewrite Forall_forall in G. split; [|split; [|split]].
    + apply Forall_forall. intros r I. destruct (G _ I) as [X|X]; [left; exact X|right; right; exact X].
    + intros r p I RP KD. assert (FR' : forall p, reach h r (RPtr p) -> get h1 p = get h p) by (intros p' X; eapply FR; [apply G; exact I|exact X]). pose proof (reach_frame _ _ _ _ FR' RP) as R0. apply (P _ _ I R0).
      unfold kind_of in *. rewrite <- (FR' _ R0). exact KD.
    + intros r I RQ. destruct (GV _ (G _ I)) as [X _]. exact (X RQ).
    + intros d [JG (l & x & GD & PL)]. apply (N d). split; [exact JG|]. exists l, x. split; [|exact PL]. rewrite <- (FR (RPtr d) d); [exact GD|apply G; apply join_ref; exact JG|apply reach_refl].
  - clear - CS FC GV. induction CS as [|c d cs ds C1 C2 IH]; [constructor|]. inversion FC as [|? ? X1 X2]; subst. constructor; [|apply IH; exact X2]. destruct X1 as (_ & G & _). rewrite Forall_forall in G.
    eapply call_stays; [|exact C1]. intros r v I. apply (GV r (G _ I)).
Qed.
Lemma arguments_stay : forall h H qs W q c h' o r, reached h H qs -> In (q, of_kind c) qs -> Forall (given H) (call_refs c) -> call W q c h = (h', o) ->
  In r (call_refs c) -> ~ reach h r (RPtr q) -> (forall p, reach h r (RPtr p) -> ~ used_up h c p) ->
  (forall p, reach h r (RPtr p) -> get h' p = get h p) /\ forall v, stands h' r v <-> stands h r v.
Proof.
  intros h H qs W q c h' o r R IQ GR CL I NQ NU. eapply call_isolated; [exact R|exact IQ|exact GR|exact CL|rewrite Forall_forall in GR; exact (GR _ I)|]. intros p RP. split; [intros ->; exact (NQ RP)|exact (NU _ RP)].
Qed.
Lemma reach_then : forall h a p b, reach h a (RPtr p) -> refers h p b -> reach h a b.
Proof. intros h a p b R F. eapply reach_trans; [exact R|]. apply reach_one. exact F. Qed.
