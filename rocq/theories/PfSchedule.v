(** Lemmas: calls on several queries in any order. *)
From Coq Require Import Lia.
From Verif Require Import Base NumFmt Value Backend Eq Render ParseArgs Build Queries Heap SpecHeap PfHeap PfHeapAlike PfHeapFrame PfHeapView HeapBuild SpecShare PfShare PfOwn PfParts PfNewItems PfMethods PfLayout PfOrders PfTables PfJoins PfCells PfConflict PfQueries PfCalls PfReading PfInside PfDictJoin PfNewQuery PfSession PfUse PfTrace SpecSchedule.
Open Scope nat_scope.
Local Arguments view : simpl never.

(** A query object refers to its parts only. *)
Lemma own_conds : forall A (see : heap -> ref -> res A) q k c sep more p own h x, pd_at (condsd see q k c sep more p) own h x -> own p <> None.
Proof. intros A see q k c sep more p own h x (l & (_ & O & _) & _). congruence. Qed.
Lemma own_tabs : forall q k c p own h x, pd_at (tabsd q k c p) own h x -> own p <> None.
Proof. intros q k c p own h x (l & i & (_ & O & _) & _). congruence. Qed.
Lemma own_orders : forall q k c p own h x, pd_at (ordersd q k c p) own h x -> own p <> None.
Proof. intros q k c p own h x (l & i & (_ & O & _) & _). congruence. Qed.
Lemma own_cell : forall V q k c p (mk : V -> list (label * ref)) own h x, pd_at (celld q k c p mk) own h x -> own p <> None.
Proof. intros V q k c p mk own h x [_ O]. congruence. Qed.
Lemma own_opts : forall V q k c p (kvs : V -> list (string * string)) own h x, pd_at (optsd q k c p kvs) own h x -> own p <> None.
Proof. intros V q k c p kvs own h x (d & _ & O & _). congruence. Qed.
Lemma own_out : forall q k p own h x, pd_at (outd q k p) own h x -> own p <> None.
Proof. intros q k p own h x (_ & O & _). congruence. Qed.
Lemma own_conflict : forall q k p own h x, pd_at (conflictd q k p) own h x -> own p <> None.
Proof. intros q k p own h x [_ P]. exact (own_conds _ _ _ _ _ _ _ _ _ _ _ P). Qed.
Ltac an_own := first [eapply own_conds; eassumption|eapply own_tabs; eassumption|eapply own_orders; eassumption|eapply own_cell; eassumption|eapply own_opts; eassumption|eapply own_out; eassumption|eapply own_conflict; eassumption].
Lemma qobj_self : forall q c ks more d a own h b, pd_at (qobjd q c ks more d a) own h b -> (forall b, atoms (more b)) -> (forall k, In k ks -> own (a k) <> None) -> ~ refers h q (RPtr q).
Proof.
  intros q c ks more d a own h b (G & O & _ & OD) AT OK (k & l & x & G' & I). rewrite G in G'. injection G' as <- <-. destruct I as [E|I]; [injection E as _ E; subst; congruence|].
  apply in_app_or in I. destruct I as [I|I].
  - apply in_map_iff in I. destruct I as (y & E & I). injection E as _ E. apply (OK _ I). rewrite E. exact O.
  - destruct (AT b _ _ I) as [y E]. discriminate.
Qed.
Lemma atoms_flag : forall n b, atoms (flagm n b).
Proof. intros n b a r [E|[]]. injection E as <- <-. eexists. reflexivity. Qed.
Lemma laid_self : forall k q own h, laid k q own h -> ~ refers h q (RPtr q).
Proof.
  intros [] q own h.
  - intros [[[d a] (b & x1 & x2 & x3 & x4 & x5 & x6 & x7 & x8 & x9 & x10)] (PQ & P1 & P2 & P3 & P4 & P5 & P6 & P7 & P8 & P9 & P10)]. cbn [fst snd] in *. eapply qobj_self; [exact PQ|intros b0 y r []|].
    intros k I. cbn in I. repeat (destruct I as [<-|I]; [an_own|]). contradiction.
  - intros [[[d a] (b & x1 & x2 & x3 & x4 & x5 & x6)] (PQ & P1 & P2 & P3 & P4 & P5 & P6)]. cbn [fst snd] in *. eapply qobj_self; [exact PQ|intros b0 y r []|].
    intros k I. cbn in I. repeat (destruct I as [<-|I]; [an_own|]). contradiction.
  - intros [[[d a] (b & x1 & x2 & x3 & x4)] (PQ & P1 & P2 & P3 & P4)]. cbn [fst snd] in *. eapply qobj_self; [exact PQ|apply atoms_flag|].
    intros k I. cbn in I. repeat (destruct I as [<-|I]; [an_own|]). contradiction.
  - intros [[[d a] (b & x1 & x2 & x3 & x4)] (PQ & P1 & P2 & P3 & P4)]. cbn [fst snd] in *. eapply qobj_self; [exact PQ|apply atoms_flag|].
    intros k I. cbn in I. repeat (destruct I as [<-|I]; [an_own|]). contradiction.
Qed.
Lemma query_lt : forall h H qs q k, reached h H qs -> In (q, k) qs -> q < List.length h /\ kind_of h q = Some (OInst (cls_of k)).
Proof.
  intros h H qs q k R I. destruct (reached_sess _ _ _ R) as (own & J & F & Q). pose proof (Q _ _ I) as L. destruct (laid_kind _ _ _ _ L) as [K _]. split; [|exact K].
  unfold kind_of in K. destruct (get h q) eqn:G; [|discriminate]. eapply get_lt; eauto.
Qed.
Lemma given_lt : forall h H qs p, reached h H qs -> given H (RPtr p) -> p < List.length h.
Proof. intros h H qs p R G. destruct (reached_sess _ _ _ R) as (own & J & F & Q). destruct (given_okr _ _ _ _ F G). assumption. Qed.
Lemma query_given : forall h H qs q k, reached h H qs -> In (q, k) qs -> given H (RPtr q).
Proof.
  intros h H qs q k R I. right. assert (M : forall more, In (q, k) more -> In (RPtr q) (map (fun x : addr * qkind => RPtr (fst x)) more)) by (intros more IM; apply in_map_iff; exists (q, k); auto).
  induction R as [|h H qs k0 l R IH GL|h H qs p k0 l l' R IH IP NQ GP GL|h H qs t h' q0 R IH NW|h H qs q0 k0 h' q' more R IH IQ WF D MO|h H qs p h' p' more R IH IP WF D MO|h H qs W q0 c h' o R IH IQ GR CL]; [contradiction|right; exact (IH I)|exact (IH I)| | | |exact (IH I)].
  - destruct I as [E|I]; [injection E as -> _; left; reflexivity|right; exact (IH I)].
  - destruct I as [E|I]; [injection E as -> _; left; reflexivity|right]. apply in_or_app. apply in_app_or in I. destruct I as [I|I]; [left; apply M; exact I|right; exact (IH I)].
  - right. apply in_or_app. apply in_app_or in I. destruct I as [I|I]; [left; apply M; exact I|right; exact (IH I)].
Qed.
(** A query that is not inside itself stays so. *)
Lemma stays_unlooped : forall h H qs W q c h' o, reached h H qs -> In (q, of_kind c) qs -> call W q c h = (h', o) -> unlooped h q -> apart h q c -> unlooped h' q.
Proof.
  intros h H qs W q c h' o R IQ CL UN AP. destruct (query_lt _ _ _ _ _ R IQ) as [LQ _]. destruct (reached_sess _ _ _ R) as (own & J & F & Q).
  exact (call_unlooped _ _ _ _ _ _ LQ (laid_self _ _ _ _ (Q _ _ IQ)) CL UN AP).
Qed.
Lemma loses_same : forall h h' c p, get h' p = get h p -> loses h' c p -> loses h c p.
Proof. intros h h' c p E [JG (l & x & G & P)]. split; [exact JG|]. exists l, x. split; [congruence|exact P]. Qed.
Lemma untouched_same : forall h h' x s p, get h' p = get h p -> untouched h (x :: s) p -> untouched h' s p.
Proof.
  intros h h' x s p E (N & K & L). split; [intros I; apply N; right; exact I|]. split; [unfold kind_of in *; rewrite E; exact K|].
  intros q c I X. exact (L q c (or_intror I) (loses_same _ _ _ _ E X)).
Qed.
Lemma untouched_use : forall h q c s p, untouched h ((q, c) :: s) p -> p <> q /\ ~ used_up h c p.
Proof.
  intros h q c s p (N & K & L). split; [intros ->; apply N; left; reflexivity|]. intros [[KP _]|X]; [exact (K KP)|]. exact (L q c (or_introl eq_refl) X).
Qed.
(** What a call on a query leaves of the objects that are not its own. *)
Lemma call_outside : forall h H qs W q c h' o p, reached h H qs -> In (q, of_kind c) qs -> Forall (given H) (call_refs c) -> call W q c h = (h', o) ->
  given H (RPtr p) -> p <> q -> ~ used_up h c p -> get h' p = get h p.
Proof.
  intros h H qs W q c h' o p R IQ GR CL GV NE NU. destruct (reached_sess _ _ _ R) as (own & J & F & Q). pose proof (Q _ _ IQ) as L.
  assert (OR : Forall (okr own h) (call_refs c)) by (exact (givens_okr _ _ _ _ F GR)). pose proof (given_okr _ _ _ _ F GV) as [LV OV].
  destruct (call_laid W (used_up h c) q own h c h' o J (used_usable _ _ _ J OR) L OR) as (own' & A & _).
  - apply Forall_forall. intros x I y RP K. left. split; [exact K|]. exists x. auto.
  - intros a JG d -> E. right. split; [exact JG|]. destruct (one_entry h (RPtr d)) as [x|] eqn:X; [|exfalso; apply E; reflexivity]. apply one_entry_of in X. destruct X as (l & G & P). exists l, x. auto.
  - exact CL.
  - destruct A as (_ & _ & FR). destruct (FR p LV) as [E|[E|[E|[s E]]]]; [exact E|contradiction|contradiction|congruence].
Qed.
Lemma kind_kept : forall h H qs W q c h' o p k, reached h H qs -> In (q, of_kind c) qs -> Forall (given H) (call_refs c) -> call W q c h = (h', o) ->
  kind_of h p = Some k -> kind_of h' p = Some k.
Proof.
  intros h H qs W q c h' o p k R IQ GR CL KP. destruct (reached_sess _ _ _ R) as (own & J & F & Q). pose proof (Q _ _ IQ) as L.
  assert (OR : Forall (okr own h) (call_refs c)) by (exact (givens_okr _ _ _ _ F GR)).
  destruct (call_laid W (used_up h c) q own h c h' o J (used_usable _ _ _ J OR) L OR) as (own' & A & _).
  - apply Forall_forall. intros x I y RP K. left. split; [exact K|]. exists x. auto.
  - intros a JG d -> E. right. split; [exact JG|]. destruct (one_entry h (RPtr d)) as [x|] eqn:X; [|exfalso; apply E; reflexivity]. apply one_entry_of in X. destruct X as (l & G & P). exists l, x. auto.
  - exact CL.
  - destruct A as ((_ & _ & KK) & _). exact (KK _ _ KP).
Qed.
Lemma quiet_next : forall h h' x s q r, (forall p, reach h r (RPtr p) -> get h' p = get h p) -> quiet h (x :: s) q r -> quiet h' s q r.
Proof.
  intros h h' x s q r FR Q p RP. pose proof (reach_frame _ _ _ _ FR RP) as R0. destruct (Q _ R0) as [N U]. split; [exact N|]. exact (untouched_same _ _ _ _ _ (FR _ R0) U).
Qed.
Lemma of_cons_same : forall A q (x : A) l, of_query q ((q, x) :: l) = x :: of_query q l.
Proof. intros A q x l. unfold of_query. cbn [filter fst]. rewrite Nat.eqb_refl. reflexivity. Qed.
Lemma of_cons_other : forall A q q0 (x : A) l, q0 <> q -> of_query q ((q0, x) :: l) = of_query q l.
Proof. intros A q q0 x l N. unfold of_query. cbn [filter fst]. destruct (Nat.eqb_spec q0 q); [contradiction|reflexivity]. Qed.
Lemma of_in : forall A q (x : A) l, In (q, x) l -> In x (of_query q l).
Proof. intros A q x l I. unfold of_query. apply in_map_iff. exists (q, x). split; [reflexivity|]. apply filter_In. split; [exact I|]. apply Nat.eqb_refl. Qed.
Lemma in_of : forall A q (x : A) l, In x (of_query q l) -> In (q, x) l.
Proof. intros A q x l I. unfold of_query in I. apply in_map_iff in I. destruct I as ([q' y] & E & I). cbn in E. subst y. apply filter_In in I. destruct I as [I E]. apply Nat.eqb_eq in E. cbn in E. subst. exact I. Qed.

Lemma schedule_refines : forall H qs W q k s h ds v h' os, reached h H qs -> In (q, k) qs -> Forall (callable H qs) s ->
  separate h s q -> (forall c r, In (q, c) s -> In r (call_refs c) -> quiet h s q r) ->
  stands h (RPtr q) v -> Forall2 (call_stands h) (of_query q s) ds -> scheduled W s h = (h', os) ->
  stands h' (RPtr q) (fst (by_itself W v ds)) /\ of_query q os = snd (by_itself W v ds).
Proof.
  intros H qs W q k s. induction s as [|[q0 c] s IH]; intros h ds v h' os R IQ CA [UN SE] QA SV CS RUN.
  - cbn in RUN, CS. injection RUN as <- <-. inversion CS; subst. split; [exact SV|reflexivity].
  - cbn [scheduled] in RUN. destruct (call W q0 c h) as [h1 o] eqn:CL. destruct (scheduled W s h1) as [h2 os'] eqn:RS. injection RUN as <- <-.
    inversion CA as [|? ? [C1 C2] C3]; subst. cbn [fst snd] in C1, C2. assert (R1 : reached h1 H qs) by (eapply calls; eauto).
    destruct (query_lt _ _ _ _ _ R IQ) as [LQ KQ].
    assert (AF : forall c' r, In (q, c') s -> In r (call_refs c') -> (forall p, reach h r (RPtr p) -> get h1 p = get h p) /\ forall v, stands h1 r v <-> stands h r v).
    { intros c' r I1 I2. assert (GV : given H r). { rewrite Forall_forall in C3. destruct (C3 _ I1) as [_ G]. cbn in G. rewrite Forall_forall in G. exact (G _ I2). }
      eapply call_isolated; [exact R|exact C1|exact C2|exact CL|exact GV|]. intros p RP. destruct (QA c' r (or_intror I1) I2 _ RP) as [_ U]. exact (untouched_use _ _ _ _ _ U). }
    assert (QA1 : forall c' r, In (q, c') s -> In r (call_refs c') -> quiet h1 s q r).
    { intros c' r I1 I2. eapply quiet_next; [exact (proj1 (AF _ _ I1 I2))|]. exact (QA c' r (or_intror I1) I2). }
    assert (CS1 : forall c' d', In (q, c') s -> call_stands h c' d' -> call_stands h1 c' d').
    { intros c' d' I1. apply call_stays. intros r v' I2. apply (AF _ _ I1 I2). }
    destruct (Nat.eq_dec q0 q) as [->|NE].
    + rewrite of_cons_same in CS. inversion CS as [|? d ? ds' D1 D2]; subst. rewrite of_cons_same. cbn [by_itself].
      assert (QC : forall r, In r (call_refs c) -> quiet h ((q, c) :: s) q r) by (intros r I; exact (QA c r (or_introl eq_refl) I)).
      assert (AP : apart h q c) by (intros r I RQ; destruct (QC r I _ RQ) as [N _]; apply N; reflexivity).
      assert (EK : k = of_kind c). { destruct (reached_sess _ _ _ R) as (own & J & F & Q). exact (laid_same _ _ _ _ _ (Q _ _ C1) (Q _ _ IQ)). } subst k.
      destruct (call_refines h H qs W q c v d h1 o R C1 C2 SV D1) as [SV1 EO]; [|exact AP|exact UN| |exact CL|].
      * intros r p I RP. destruct (QC r I _ RP) as [_ (_ & K & _)]. exact K.
      * intros e LS. destruct LS as [JG X]. exfalso. destruct (QC _ (join_ref _ _ JG) e (reach_refl _ _)) as [_ (_ & _ & L)]. exact (L q c (or_introl eq_refl) (Logic.conj JG X)).
      * destruct (called W v d) as [v1 o1] eqn:EC. cbn [fst snd] in SV1, EO. subst o1.
        destruct (IH h1 ds' v1 h2 os') as [A B]; [exact R1|exact IQ|exact C3| |exact QA1|exact SV1| |exact RS|].
        -- split; [exact (stays_unlooped _ _ _ _ _ _ _ _ R C1 CL UN AP)|]. intros p NP RP. destruct (reached_sess _ _ _ R) as (own & J & F & Q).
           assert (NL : forall q' c', In (q', c') s -> loses h1 c' p -> p < List.length h /\ given H (RPtr p)).
           { intros q' c' I [JG _]. rewrite Forall_forall in C3. destruct (C3 _ I) as [_ G]. cbn in G. rewrite Forall_forall in G. pose proof (G _ (join_ref _ _ JG)) as GV. split; [exact (given_lt _ _ _ _ R GV)|exact GV]. }
           assert (NQ : In p (map fst s) -> p < List.length h).
           { intros I. apply in_map_iff in I. destruct I as ([p' c'] & E & I). cbn in E. subst p'. rewrite Forall_forall in C3. destruct (C3 _ I) as [G _]. cbn in G. exact (proj1 (query_lt _ _ _ _ _ R G)). }
           assert (OLD : p < List.length h -> untouched h ((q, c) :: s) p -> untouched h1 s p).
           { intros LP U. pose proof (untouched_use _ _ _ _ _ U) as [_ NU]. destruct U as (N & K & L). split; [intros I; apply N; right; exact I|]. split.
             - unfold kind_of in K. destruct (get h p) as [o'|] eqn:G; [|apply nth_error_None in G; lia]. assert (KP : kind_of h p = Some (o_kind o')) by (unfold kind_of; rewrite G; reflexivity).
               rewrite (kind_kept _ _ _ _ _ _ _ _ _ _ R C1 C2 CL KP). exact K.
             - intros q' c' I X. destruct (NL _ _ I X) as [_ GV]. apply (L q' c' (or_intror I)). apply (loses_same h h1); [|exact X]. exact (call_outside _ _ _ _ _ _ _ _ _ R C1 C2 CL GV NP NU). }
           destruct (call_trace W q c h h1 o p (in_closed _ _ J) CL RP) as [[LP KP]|[RO|(r & I & RO)]].
           ++ split; [intros I; apply NQ in I; lia|]. split; [exact KP|]. intros q' c' I X. destruct (NL _ _ I X) as [L _]. lia.
           ++ apply OLD; [|exact (SE _ NP RO)]. exact (reach_valid _ _ _ (in_closed _ _ J) RO LQ).
           ++ destruct (QC r I _ RO) as [_ U]. apply OLD; [|exact U]. rewrite Forall_forall in C2. pose proof (okr_valid _ _ _ (given_okr _ _ _ _ F (C2 _ I))) as V. exact (reach_valid _ _ _ (in_closed _ _ J) RO V).
        -- clear - D2 CS1. assert (X : forall c', In c' (of_query q s) -> forall d', call_stands h c' d' -> call_stands h1 c' d') by (intros c' I d'; apply CS1; apply in_of; exact I).
           induction D2 as [|c' d' cs ds C1 C2 IH]; [constructor|]. constructor; [apply X; [left; reflexivity|exact C1]|]. apply IH. intros c2 I. apply X. right. exact I.
        -- destruct (by_itself W v1 ds') as [v2 os2]. cbn [fst snd] in *. split; [exact A|]. f_equal. exact B.
    + rewrite of_cons_other in CS by exact NE. rewrite of_cons_other by exact NE.
      assert (FQ : (forall p, reach h (RPtr q) (RPtr p) -> get h1 p = get h p) /\ forall v, stands h1 (RPtr q) v <-> stands h (RPtr q) v).
      { destruct (reached_sess _ _ _ R) as (own & J & F & Q). eapply call_isolated; [exact R|exact C1|exact C2|exact CL| |].
        - exact (query_given _ _ _ _ _ R IQ).
        - intros p RP. destruct (Nat.eq_dec p q) as [->|NP]; [|exact (untouched_use _ _ _ _ _ (SE _ NP RP))]. split; [intros E; apply NE; symmetry; exact E|].
          intros [[K _]|[_ (l & x & G & _)]]; [congruence|]. unfold kind_of in KQ. rewrite G in KQ. discriminate. }
      destruct FQ as [FR FS].
      destruct (IH h1 ds v h2 os') as [A B]; [exact R1|exact IQ|exact C3| |exact QA1|apply FS; exact SV| |exact RS|split; assumption].
      * split.
        -- intros p NP RP RB. pose proof (reach_frame _ _ _ _ FR RP) as R0. apply (UN _ NP R0). eapply reach_frame; [|exact RB]. intros y RY. apply FR. eapply reach_trans; [exact R0|exact RY].
        -- intros p NP RP. pose proof (reach_frame _ _ _ _ FR RP) as R0. exact (untouched_same _ _ _ _ _ (FR _ R0) (SE _ NP R0)).
      * clear - CS CS1. assert (X : forall c', In c' (of_query q s) -> forall d', call_stands h c' d' -> call_stands h1 c' d') by (intros c' I d'; apply CS1; apply in_of; exact I).
        induction CS as [|c' d' cs ds C1 C2 IH]; [constructor|]. constructor; [apply X; [left; reflexivity|exact C1]|]. apply IH. intros c2 I. apply X. right. exact I.
Qed.

(** An object stands for one value. *)
Lemma stands_one : forall h r v w, stands h r v -> stands h r w -> v = w.
Proof.
  intros h r v w [n A] [m B]. apply (decode_mono h _ (n + m)) in A; [|lia]. apply (decode_mono h _ (n + m)) in B; [|lia]. congruence.
Qed.
Lemma any_order : forall h H qs W q k s1 s2 ds v h1 os1 h2 os2, reached h H qs -> In (q, k) qs -> Forall (callable H qs) s1 -> Forall (callable H qs) s2 ->
  separate h s1 q -> separate h s2 q ->
  (forall c r, In (q, c) s1 -> In r (call_refs c) -> quiet h s1 q r) -> (forall c r, In (q, c) s2 -> In r (call_refs c) -> quiet h s2 q r) ->
  of_query q s1 = of_query q s2 -> stands h (RPtr q) v -> Forall2 (call_stands h) (of_query q s1) ds ->
  scheduled W s1 h = (h1, os1) -> scheduled W s2 h = (h2, os2) ->
  (forall u, stands h1 (RPtr q) u <-> stands h2 (RPtr q) u) /\ of_query q os1 = of_query q os2.
Proof.
  intros h H qs W q k s1 s2 ds v h1 os1 h2 os2 R IQ C1 C2 S1 S2 A1 A2 E SV CS R1 R2.
  destruct (schedule_refines H qs W q k s1 h ds v h1 os1 R IQ C1 S1 A1 SV CS R1) as [X1 Y1]. rewrite E in CS.
  destruct (schedule_refines H qs W q k s2 h ds v h2 os2 R IQ C2 S2 A2 SV CS R2) as [X2 Y2]. split; [|congruence].
  intros u. split; intros U.
  - rewrite <- (stands_one _ _ _ _ X1 U). exact X2.
  - rewrite <- (stands_one _ _ _ _ X2 U). exact X1.
Qed.
