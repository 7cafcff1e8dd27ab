(** Lemmas: printing in programs. *)
From Coq Require Import Lia.
From Verif Require Import Base NumFmt Value Backend Eq Render ParseArgs Build Queries Heap SpecHeap PfHeap PfHeapView HeapBuild HeapShow SpecEffects SpecShare SpecSchedule SpecPrinting PfEffects PfShare PfOwn PfReading PfInside PfSession PfUse PfTrace PfSchedule PfPrinted.
Open Scope string_scope.
Open Scope list_scope.
Open Scope nat_scope.
Local Arguments view : simpl never.

Lemma table2_refl : forall E t, table2 E (touch E) t t.
Proof. intros E t. split; [apply t_same|]. split; [apply t_same|]. exists (tb_joins t), (tb_joins t). split; [left; reflexivity|]. split; [apply join2_refl|left; reflexivity]. Qed.
Lemma tables2_refl : forall E l, Forall2 (table2 E (touch E)) l l.
Proof. intros E l. induction l; constructor; [apply table2_refl|assumption]. Qed.
Lemma shown_table_touch : forall E t, table2 E (touch E) t (fst (shown_table (pure_world E) t)).
Proof.
  intros E t. unfold shown_table. destruct (minimize (w_str (pure_world E)) (tb_joins t)) as [js|] eqn:M; [|apply table2_refl]. split; [apply t_same|]. split; [apply t_same|].
  exists js, js. split; [right; exact M|]. split; [apply join2_refl|left; reflexivity].
Qed.
Lemma shown_tables_touch : forall E l n, Forall2 (table2 E (touch E)) l (fst (shown_tables (pure_world E) n l)).
Proof. intros E l. induction l as [|t l IH]; intros [|n]; cbn; try constructor; [apply shown_table_touch|apply tables2_refl|apply table2_refl|apply IH]. Qed.
Lemma same_list : forall A (R : A -> A -> Prop) l, (forall x, R x x) -> Forall2 R l l.
Proof. intros A R l H. induction l; constructor; auto. Qed.
Lemma shown_touch : forall E v f n, touch E v (fst (shown (pure_world E) v f n)).
Proof.
  intros E v f n. assert (TT : forall x, touch E x x) by (intros; apply t_same). assert (OO : forall o, opt2 (touch E) o o) by (intros []; constructor; apply TT).
  destruct v; try apply t_same; cbn [shown].
  - unfold lift1. cbn [fst]. apply t_select. destruct q. unfold sel2, with_tabs. cbn.
    split; [reflexivity|]. split; [apply same_list; intros x; split; apply TT|]. split; [apply shown_tables_touch|]. split; [apply same_list; exact TT|]. split; [apply same_list; intros x; split; [apply TT|reflexivity]|].
    split; [apply same_list; exact TT|]. split; [apply same_list; intros x; split; [apply TT|reflexivity]|]. split; [reflexivity|]. split; [repeat split; apply OO|reflexivity].
  - destruct q. unfold lift1. cbn [fst]. apply t_insert. unfold ins2. cbn. split; [reflexivity|]. split; [reflexivity|]. split; [apply shown_tables_touch|]. split; [apply same_list; intros x; apply same_list; exact TT|].
    split; [apply same_list; exact TT|]. split; [reflexivity|]. apply same_list; exact TT.
  - destruct q. unfold lift1. cbn [fst]. apply t_update. unfold upd2. cbn. split; [reflexivity|]. split; [apply shown_tables_touch|]. split; [apply same_list; exact TT|]. split; [apply same_list; exact TT|reflexivity].
  - destruct q. destruct f; unfold lift1; cbn [fst]; apply t_delete; unfold del2; cbn; (split; [reflexivity|]).
    + split; [apply tables2_refl|]. split; [apply shown_tables_touch|]. split; [apply same_list; exact TT|reflexivity].
    + split; [apply shown_tables_touch|]. split; [apply tables2_refl|]. split; [apply same_list; exact TT|reflexivity].
Qed.
Lemma query_value : forall h q k v, kind_of h q = Some (OInst (cls_of k)) -> stands h (RPtr q) v -> is_none v = false /\ forall t x, v <> VRel t x.
Proof.
  intros h q k v K [n S]. destruct n as [|n]; [discriminate|]. cbn [decode d_body] in S. unfold kind_of in K. cbn [obj_at] in S. destruct (get h q) as [[k0 l]|]; [|discriminate]. injection K as ->. cbn [bind o_kind] in S.
  destruct k; cbn [cls_of d_inst] in S; match type of S with rmap _ ?m = _ => destruct m; [|discriminate] end; injection S as <-; split; try reflexivity; discriminate.
Qed.
Lemma show_moves : forall h H qs E q k f n h' o, reached h H qs -> In (q, k) qs -> unlooped h q -> call (pure_world E) q (HShow k f n) h = (h', o) ->
  forall r v, given H r -> stands h r v -> exists w, stands h' r w /\ moved_to E v w.
Proof.
  intros h H qs E q k f n h' o R IQ UN CL r0 v0 GR S0. destruct (reached_sess _ _ _ R) as (own & J & F & Q). pose proof (Q _ _ IQ) as L. destruct (laid_kind _ _ _ _ L) as [KQ OQ].
  destruct (call_laid (pure_world E) (fun _ => False) q own h (HShow k f n) h' o J) as (own' & A & L'); [intros y []|exact L|constructor|constructor|intros a JG; discriminate|exact CL|].
  destruct A as (KP & J' & A).
  set (N := fun p => p < List.length h /\ forall s, own p <> Some (q, s)).
  assert (SAME : forall p, N p -> p <> q -> get h' p = get h p).
  { intros p [LP NP] NE. destruct (A p LP) as [G|[[]|[->|[s E1]]]]; [exact G|contradiction NE; reflexivity|contradiction (NP s)]. }
  assert (NQ : N q). { split; [|intros s; rewrite OQ; discriminate]. unfold kind_of in KQ. destruct (get h q) eqn:G; [eapply get_lt; eauto|discriminate]. }
  assert (KIND : kind_of h' q = kind_of h q) by (rewrite KQ; destruct KP as (_ & _ & KP); apply KP; exact KQ).
  assert (QK : forall k0, kind_of h q = Some k0 -> query_kind k0 = true) by (intros k0 K0; rewrite KQ in K0; injection K0 as <-; destruct k; reflexivity).
  assert (NEXT : forall p k0 l a r, N p -> p <> q -> get h p = Some (MkObj k0 l) -> In (a, r) l -> nr N r).
  { intros p k0 l a [x|b] [LP NP] NE G I; [exact Logic.I|]. assert (RF : refers h p (RPtr b)) by (exists k0, l, a; auto). split; [exact (in_closed _ _ J _ _ RF)|].
    intros s OB. destruct (in_priv _ _ J _ _ _ _ RF OB) as [->|[s' OP]]; [contradiction NE; reflexivity|exact (NP _ OP)]. }
  assert (MAIN : forall m r, nr N r -> okrel (goes_to E) (decode h m r) (view h' r)).
  { intros m. induction m as [|m IH]; intros r X; [intros v V; discriminate|].
    assert (OTHER : ex N q r -> okrel (goes_to E) (decode h (S m) r) (view h' r)).
    { intros Y v V. cbn [decode] in V. destruct (rd_body h h' N q SAME KIND QK NEXT E (decode h m) (view h') IH r Y v V) as (w & W & G). exists w. split; [|exact G].
      apply stands_view. exists (S (S (List.length h'))). exact W. }
    destruct r as [a|p]; [apply OTHER; exact Logic.I|]. destruct (Nat.eq_dec p q) as [->|NE]; [|apply OTHER; split; assumption].
    intros v V. assert (SV : stands h (RPtr q) v) by (exists (S m); exact V).
    destruct (call_refines h H qs (pure_world E) q (HShow k f n) v (VShow f n) h' o R IQ) as [S' _]; [constructor|exact SV|split; reflexivity|intros r p []|intros r []|exact UN|intros d [X1 _]; discriminate|exact CL|].
    destruct (query_value _ _ _ _ KQ SV) as [NV RV]. destruct (query_value h' q k _ ltac:(rewrite KIND; exact KQ) S') as [NV' _].
    exists (fst (called (pure_world E) v (VShow f n))). split; [apply stands_view; exact S'|]. apply goes; [|congruence|exact RV]. intros _.
    assert (EC : called (pure_world E) v (VShow f n) = shown (pure_world E) v f n) by (destruct v; reflexivity). rewrite EC. apply shown_touch. }
  assert (X0 : nr N r0). { destruct r0 as [a|p]; [exact Logic.I|]. destruct (given_okr _ _ _ _ F GR) as [LP OP]. split; [exact LP|]. intros s. rewrite OP. discriminate. }
  destruct S0 as [m S0]. destruct (MAIN m r0 X0 v0 S0) as (w & W & G & _). exists w. split; [apply stands_view; exact W|exact G].
Qed.
(** Printing one query puts no other query into itself. *)
Lemma show_other_unlooped : forall h H qs W q k f n h' o q2 k2, reached h H qs -> In (q, k) qs -> In (q2, k2) qs -> q2 <> q -> call W q (HShow k f n) h = (h', o) ->
  unlooped h q2 -> unlooped h' q2.
Proof.
  intros h H qs W q k f n h' o q2 k2 R IQ IQ2 NE CL UN p NP R1 R2.
  assert (GV : given H (RPtr q2)) by (exact (query_given _ _ _ _ _ R IQ2)). destruct (reached_sess _ _ _ R) as (own & J & F & Q). destruct (query_lt _ _ _ _ _ R IQ2) as [LQ2 _].
  assert (OUT : get h' q2 = get h q2). { apply (call_outside h H qs W q (HShow k f n) h' o q2 R IQ); [constructor|exact CL|exact GV|exact NE|]. intros [[_ (r & [] & _)]|[X _]]; discriminate. }
  assert (CASES : ~ ~ (reach h (RPtr q) (RPtr q2) \/ ~ reach h (RPtr q) (RPtr q2))) by tauto. apply CASES. intros [YES|NO].
  - assert (FR : forall x, reach h (RPtr q2) (RPtr x) -> get h' x = get h x).
    { apply (call_isolated h H qs W q (HShow k f n) h' o (RPtr q2) R IQ); [constructor|exact CL|exact GV|]. intros x RX. split; [|intros [[_ (r & [] & _)]|[X _]]; discriminate].
      intros ->. exact (UN q (fun X => NE (eq_sym X)) RX YES). }
    pose proof (reach_frame _ _ _ _ FR R1) as O1. apply (UN p NP O1). apply (reach_frame h h'); [|exact R2]. intros x RX. apply FR. eapply reach_trans; eauto.
  - set (S := fun x => List.length h <= x \/ (x <> q2 /\ (reach h (RPtr q) (RPtr x) \/ reach h (RPtr q2) (RPtr x)))).
    assert (LA : forall x, List.length h <= x -> S x) by (intros x L; left; exact L).
    assert (FE : fenced S S (List.length h) h).
    { split; [lia|]. split.
      - intros a [b|b] SA RF; [exact Logic.I|]. cbn. destruct SA as [L|(NA & [RA|RA])].
        + exfalso. destruct RF as (k0 & l & y & G & _). apply get_lt in G. lia.
        + assert (RB : reach h (RPtr q) (RPtr b)) by (eapply reach_trans; [exact RA|eapply reach_step; [exact RF|apply reach_refl]]). right. split; [intros ->; contradiction|left; exact RB].
        + assert (AB : reach h (RPtr a) (RPtr b)) by (eapply reach_step; [exact RF|apply reach_refl]). right. split; [intros ->; exact (UN a NA RA AB)|right; eapply reach_trans; eauto].
      - intros x L. unfold kind_of. destruct (get h x) eqn:G; [|discriminate]. apply get_lt in G. lia. }
    destruct (tame_call S S (List.length h) LA (fun x X => X) W q (HShow k f n)) with (h := h) (h' := h') (o := o) as [(_ & FC & _) _]; [|constructor|exact FE|exact CL|].
    + right. split; [intros E; apply NE; symmetry; exact E|left; apply reach_refl].
    + assert (X : forall a b, reach h' a b -> inS S a -> inS S b).
      { intros a b RX. induction RX as [r|x r s RF RX IH]; intros SA; [exact SA|]. apply IH. exact (FC _ _ SA RF). }
      assert (NS : ~ S q2) by (intros [L|[X1 _]]; [lia|apply X1; reflexivity]).
      inversion R1 as [|a r s RF RR]; [congruence|subst].
      assert (RF0 : refers h q2 r) by (destruct RF as (k0 & l & y & G & I); rewrite OUT in G; exists k0, l, y; auto).
      destruct r as [at_|b]; [inversion RR|].
      assert (SB : S b). { right. split; [intros ->; exact (laid_self _ _ _ _ (Q _ _ IQ2) RF0)|right; eapply reach_step; [exact RF0|apply reach_refl]]. }
      apply NS. exact (X (RPtr b) (RPtr q2) (reach_trans _ _ _ _ RR R2) SB).
Qed.
Lemma show_unlooped : forall h H qs W q k f n h' o q2 k2, reached h H qs -> In (q, k) qs -> In (q2, k2) qs -> call W q (HShow k f n) h = (h', o) ->
  unlooped h q2 -> unlooped h' q2.
Proof.
  intros h H qs W q k f n h' o q2 k2 R IQ IQ2 CL UN. destruct (Nat.eq_dec q2 q) as [->|NE]; [|exact (show_other_unlooped _ _ _ _ _ _ _ _ _ _ _ _ R IQ IQ2 NE CL UN)].
  apply (stays_unlooped h H qs W q (HShow k f n) h' o R IQ CL UN). intros r [].
Qed.
Lemma show_step : forall h H qs W q k f n h' o, reached h H qs -> In (q, k) qs -> call W q (HShow k f n) h = (h', o) -> reached h' H qs.
Proof. intros h H qs W q k f n h' o R IQ CL. exact (calls h H qs W q (HShow k f n) h' o R IQ (Forall_nil _) CL). Qed.
Lemma prints_text : forall E H qs s h h' os r v, reached h H qs -> printing qs s -> sound h s -> given H r -> stands h r v -> plainly_joined v ->
  scheduled (pure_world E) s h = (h', os) -> exists v', stands h' r v' /\ touches E v v' /\ text E v' = text E v.
Proof.
  intros E H qs s. induction s as [|[q c] s IH]; intros h h' os r v R PR SO GR SV PJ RUN.
  - injection RUN as <- <-. exists v. split; [exact SV|]. split; [constructor|reflexivity].
  - cbn [scheduled] in RUN. inversion PR as [|? ? (k & f & n & EC & IQ) PR']; subst. cbn in EC, IQ. subst c.
    destruct (call (pure_world E) q (HShow k f n) h) as [h1 o] eqn:CL. destruct (scheduled (pure_world E) s h1) as [h2 os2] eqn:RS. injection RUN as <- <-.
    assert (UN : unlooped h q) by (apply SO; left; reflexivity).
    destruct (show_moves _ _ _ _ _ _ _ _ _ _ R IQ UN CL _ _ GR SV) as (w & SW & M). specialize (M PJ).
    destruct (IH h1 h2 os2 r w) as (v' & S' & T & _); [exact (show_step _ _ _ _ _ _ _ _ _ _ R IQ CL)|exact PR'| |exact GR|exact SW|exact (touch_pj _ _ _ PJ M)|exact RS|].
    + intros q2 I. pose proof I as I2. apply in_map_iff in I2. destruct I2 as ([q3 c3] & E3 & I3). cbn in E3. subst q3. unfold printing in PR'. rewrite Forall_forall in PR'. destruct (PR' _ I3) as (k3 & f3 & n3 & _ & IQ3). cbn in IQ3.
      exact (show_unlooped _ _ _ _ _ _ _ _ _ _ _ _ R IQ IQ3 CL (SO _ (or_intror I))).
    + exists v'. assert (TT : touches E v v') by (eapply ts_more; eauto). split; [exact S'|]. split; [exact TT|]. exact (touches_text _ _ _ PJ TT).
Qed.
Lemma prints_elsewhere : forall W H qs s h h' os r, reached h H qs -> printing qs s -> given H r -> (forall q, In q (map fst s) -> ~ reach h r (RPtr q)) ->
  scheduled W s h = (h', os) -> (forall p, reach h r (RPtr p) -> get h' p = get h p) /\ forall v, stands h' r v <-> stands h r v.
Proof.
  intros W H qs s. induction s as [|[q c] s IH]; intros h h' os r R PR GR AV RUN.
  - injection RUN as <- <-. split; [reflexivity|tauto].
  - cbn [scheduled] in RUN. inversion PR as [|? ? (k & f & n & EC & IQ) PR']; subst. cbn in EC, IQ. subst c.
    destruct (call W q (HShow k f n) h) as [h1 o] eqn:CL. destruct (scheduled W s h1) as [h2 os2] eqn:RS. injection RUN as <- <-.
    destruct (call_isolated h H qs W q (HShow k f n) h1 o r R IQ) as [FR ST]; [constructor|exact CL|exact GR| |].
    + intros p RP. split; [intros ->; exact (AV q (or_introl eq_refl) RP)|]. intros [[_ (x & [] & _)]|[X _]]; discriminate.
    + assert (BACK : forall p, reach h1 r p -> reach h r p) by (intros p; apply reach_frame; exact FR).
      assert (FORTH : forall p, reach h r p -> reach h1 r p).
      { intros p RP. apply (reach_frame h1 h); [|exact RP]. intros x RX. symmetry. apply FR. apply BACK. exact RX. }
      destruct (IH h1 h2 os2 r (show_step _ _ _ _ _ _ _ _ _ _ R IQ CL) PR' GR) as [FR2 ST2]; [|exact RS|].
      * intros q2 I RQ. exact (AV q2 (or_intror I) (BACK _ RQ)).
      * split; [intros p RP; rewrite (FR2 p (FORTH _ RP)); exact (FR p RP)|]. intros v. rewrite ST2. exact (ST v).
Qed.
