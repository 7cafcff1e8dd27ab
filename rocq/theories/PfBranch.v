(** Lemmas: a copied query and the rest of the program. *)
From Coq Require Import Lia.
From Verif Require Import Base NumFmt Value Backend Eq Render ParseArgs Build Queries Heap SpecHeap PfHeap PfHeapCopy PfHeapAlike PfHeapFrame PfHeapView HeapBuild SpecShare PfShare PfOwn PfReading PfSession PfUse SpecSchedule PfSchedule.
Open Scope nat_scope.

Lemma img_back : forall h h1 m, well_formed h -> Inv h [] h1 m -> forall r' x', reach h1 r' x' -> forall r, img h h1 m r r' -> exists x, img h h1 m x x' /\ reach h r x.
Proof.
  intros h h1 m WF I r' x' R. induction R as [r'|p' r' x' RF R IH]; intros r X; [exists r; split; [exact X|apply reach_refl]|].
  destruct r as [a|p]; [contradiction|]. destruct (al_obj _ _ _ (img_alike _ _ _ WF I) _ _ X) as (p2 & k & l & l' & E & G & G' & F). injection E as <-.
  destruct RF as (k1 & l1 & a & G1 & IA). rewrite G' in G1. injection G1 as <- <-.
  assert (Y : exists r0, In (a, r0) l /\ img h h1 m r0 r').
  { clear - F IA. induction F as [|[b x] [b' x1] l l' [E J] F IHF]; [contradiction|]. cbn in E, J. subst b'. destruct IA as [E|IA].
    - injection E as -> ->. exists x. split; [left; reflexivity|exact J].
    - destruct (IHF IA) as (r0 & A & B). exists r0. split; [right; exact A|exact B]. }
  destruct Y as (r0 & IR & X0). destruct (IH _ X0) as (x & XX & RX). exists x. split; [exact XX|]. eapply reach_step; [|exact RX]. exists k, l, a. auto.
Qed.
Lemma old_reach : forall h h1 m, well_formed h -> Inv h [] h1 m -> forall r x, reach h1 r x -> match r with RAtom _ => True | RPtr p => p < List.length h end ->
  reach h r x /\ match x with RAtom _ => True | RPtr p => p < List.length h end.
Proof.
  intros h h1 m WF I r x R. induction R as [r|p r x RF R IH]; intros L; [split; [apply reach_refl|exact L]|].
  destruct RF as (k & l & a & G & IA). rewrite (i_old _ _ _ _ I) in G by exact L. assert (RF : refers h p r) by (exists k, l, a; auto).
  destruct IH as [A B]; [destruct r as [b|y]; [exact Logic.I|exact (wf_closed _ WF _ _ RF)]|]. split; [|exact B]. eapply reach_step; [exact RF|exact A].
Qed.
Section Branch.
Variables (h : heap) (H : list ref) (qs : list (addr * qkind)) (q : addr) (k : qkind) (h' : heap) (q' : addr).
Hypotheses (R : reached h H qs) (IQ : In (q, k) qs) (WF : well_formed h) (D : deepcopy h q = Ok (h', q')).
Lemma copy_memo : exists m, Inv h [] h' m /\ m q = Some q'.
Proof.
  destruct (query_lt _ _ _ _ _ R IQ) as [LQ KQ]. destruct (deepcopy_inv _ _ _ _ WF LQ D) as (m & I & X). exists m. split; [exact I|]. cbn in X. destruct X as [[F _]|[[_ M]|[_ (f & s & s' & G & _)]]].
  - apply frozen_kind in F. congruence.
  - exact M.
  - unfold kind_of in KQ. rewrite G in KQ. discriminate.
Qed.
Lemma copy_new : List.length h <= q' /\ q' < List.length h'.
Proof. destruct copy_memo as (m & I & M). apply (i_dom _ _ _ _ I) in M. lia. Qed.
Lemma branch_reached : reached h' (RPtr q' :: H) ((q', k) :: qs).
Proof. exact (copies _ _ _ _ _ _ _ [] R IQ WF D (Forall_nil _)). Qed.
Lemma copy_stands : forall v, stands h' (RPtr q') v <-> stands h (RPtr q) v.
Proof.
  intros v. destruct (query_lt _ _ _ _ _ R IQ) as [LQ _]. pose proof (deepcopy_alike _ _ _ _ WF LQ D) as A. split; intros [n E]; exists n; [rewrite (alike_decode _ _ _ _ n A)|rewrite <- (alike_decode _ _ _ _ n A)]; exact E.
Qed.
Lemma copy_unlooped : unlooped h q -> unlooped h' q'.
Proof.
  intros U p' N A B. destruct copy_memo as (m & I & M). assert (X : img h h' m (RPtr q) (RPtr q')).
  { destruct (query_lt _ _ _ _ _ R IQ) as [LQ KQ]. right. left. split; [rewrite KQ; discriminate|exact M]. }
  destruct (img_back _ _ _ WF I _ _ A _ X) as ([a|p] & XP & RP); [contradiction|]. destruct (img_back _ _ _ WF I _ _ B _ XP) as ([a|x] & XX & RX); [contradiction|].
  assert (KQ' : kind_of h' q' = Some (OInst (cls_of k))). { destruct (query_lt _ _ _ _ _ branch_reached (or_introl eq_refl)) as [_ K]. exact K. }
  assert (x = q). { cbn in XX. destruct XX as [[F E]|[[_ M']|[_ (f & s & s' & _ & G & _)]]].
    - subst x. inversion F as [|p1 l1 G1 Z1 E1]; subst. apply get_lt in G1. pose proof copy_new. lia.
    - exact (i_inj _ _ _ _ I _ _ _ M' M).
    - unfold kind_of in KQ'. rewrite G in KQ'. discriminate. }
  subst x. apply (U p); [|exact RP|exact RX]. intros ->. cbn in XP. destruct (query_lt _ _ _ _ _ R IQ) as [_ KQ]. destruct XP as [[F E]|[[_ M']|[_ (f & s & s' & G & _)]]].
  - apply frozen_kind in F. congruence.
  - congruence.
  - unfold kind_of in KQ. rewrite G in KQ. discriminate.
Qed.
Lemma copy_separate_of : forall s, Forall (callable (RPtr q' :: H) ((q', k) :: qs)) s -> unlooped h q -> separate h' s q'.
Proof.
  intros s CA U. split; [apply copy_unlooped; exact U|]. intros p' N A. destruct copy_memo as (m & I & M). assert (X : img h h' m (RPtr q) (RPtr q')).
  { destruct (query_lt _ _ _ _ _ R IQ) as [LQ KQ]. right. left. split; [rewrite KQ; discriminate|exact M]. }
  destruct (img_back _ _ _ WF I _ _ A _ X) as ([a|p] & XP & RP); [contradiction|].
  assert (Y : (p' < List.length h -> kind_of h' p' = Some OTuple) /\ kind_of h' p' <> Some OGen).
  { cbn in XP. destruct XP as [[F <-]|[[_ M']|[L (f & s0 & s' & _ & G & _)]]].
    - pose proof (frozen_kind _ _ F) as KF. inversion F as [|p1 l1 G1 Z1 E1]; subst. assert (E : kind_of h' p = Some OTuple) by (unfold kind_of; rewrite (i_old _ _ _ _ I) by (eapply get_lt; eauto); exact KF).
      split; [intros _; exact E|rewrite E; discriminate].
    - split; [apply (i_dom _ _ _ _ I) in M'; lia|]. destruct (i_cop _ _ _ _ I _ _ M') as (k0 & l0 & l' & _ & B & _ & NG); [intros []|]. unfold kind_of. rewrite B. cbn. congruence.
    - split; [lia|]. unfold kind_of. rewrite G. discriminate. }
  destruct Y as [Y NG]. split; [|split; [exact NG|]].
  - intros IN. apply in_map_iff in IN. destruct IN as ([x c] & E & IN). cbn in E. subst x. rewrite Forall_forall in CA. destruct (CA _ IN) as [CQ _]. cbn in CQ. destruct CQ as [E|CQ]; [injection E as <- _; apply N; reflexivity|].
    destruct (query_lt _ _ _ _ _ R CQ) as [L _]. destruct (query_lt _ _ _ _ _ branch_reached (or_intror CQ)) as [_ K]. rewrite (Y L) in K. discriminate.
  - intros x c IN [JG (l & y & G & _)]. rewrite Forall_forall in CA. destruct (CA _ IN) as [_ GV]. cbn in GV. rewrite Forall_forall in GV.
    assert (IR : In (RPtr p') (call_refs c)) by (destruct c as [[]|[]|[]|[]|]; cbn in JG |- *; try discriminate; injection JG as ->; left; reflexivity).
    destruct (GV _ IR) as [(a & E)|[E|IH]]; [discriminate|injection E as <-; apply N; reflexivity|].
    assert (L : p' < List.length h) by (apply (given_lt _ _ _ _ R); right; exact IH). specialize (Y L). unfold kind_of in Y. rewrite G in Y. discriminate.
Qed.
Lemma old_untouched : forall s p, p < List.length h -> untouched h s p -> untouched h' s p.
Proof.
  intros s p L (A & B & C). destruct copy_memo as (m & I & M). pose proof (i_old _ _ _ _ I _ L) as E. split; [exact A|]. split; [unfold kind_of in *; rewrite E; exact B|].
  intros x c IN X. exact (C _ _ IN (loses_same _ _ _ _ E X)).
Qed.
Lemma others_separate : forall s r t, In (r, t) qs -> separate h s r -> separate h' s r.
Proof.
  intros s r t IR [U S]. destruct copy_memo as (m & I & M). destruct (query_lt _ _ _ _ _ R IR) as [LR _]. split.
  - intros p N A B. destruct (old_reach _ _ _ WF I _ _ A LR) as [A' L]. destruct (old_reach _ _ _ WF I _ _ B L) as [B' _]. exact (U p N A' B').
  - intros p N A. destruct (old_reach _ _ _ WF I _ _ A LR) as [A' L]. apply old_untouched; [exact L|]. exact (S p N A').
Qed.
Lemma others_stand : forall r v, given H r -> (stands h' r v <-> stands h r v).
Proof.
  intros [a|p] v G; [split; intros [n E]; exists n; destruct n; [discriminate|exact E|discriminate|exact E]|]. pose proof (given_lt _ _ _ _ R G) as L. destruct (query_lt _ _ _ _ _ R IQ) as [LQ _].
  split; intros [n E]; exists n; [rewrite <- (copy_keeps _ _ _ _ WF LQ D p n L)|rewrite (copy_keeps _ _ _ _ WF LQ D p n L)]; exact E.
Qed.
End Branch.
Lemma copy_branch : forall h H qs q k h' q' W s v ds h2 os, reached h H qs -> In (q, k) qs -> well_formed h -> deepcopy h q = Ok (h', q') -> unlooped h q -> stands h (RPtr q) v ->
  Forall (callable (RPtr q' :: H) ((q', k) :: qs)) s -> (forall c r, In (q', c) s -> In r (call_refs c) -> quiet h' s q' r) -> Forall2 (call_stands h') (of_query q' s) ds ->
  scheduled W s h' = (h2, os) -> stands h2 (RPtr q') (fst (by_itself W v ds)) /\ of_query q' os = snd (by_itself W v ds).
Proof.
  intros h H qs q k h' q' W s v ds h2 os R IQ WF D U S CA QA CS RUN. eapply schedule_refines; [exact (branch_reached _ _ _ _ _ _ _ R IQ WF D)|left; reflexivity|exact CA| |exact QA| |exact CS|exact RUN].
  - exact (copy_separate_of _ _ _ _ _ _ _ R IQ WF D s CA U).
  - apply (copy_stands _ _ _ _ _ _ _ R IQ WF D). exact S.
Qed.
Lemma original_branch : forall h H qs q k h' q' W s r t v ds h2 os, reached h H qs -> In (q, k) qs -> well_formed h -> deepcopy h q = Ok (h', q') -> In (r, t) qs -> separate h s r -> stands h (RPtr r) v ->
  Forall (callable (RPtr q' :: H) ((q', k) :: qs)) s -> (forall c x, In (r, c) s -> In x (call_refs c) -> quiet h' s r x) -> Forall2 (call_stands h') (of_query r s) ds ->
  scheduled W s h' = (h2, os) -> stands h2 (RPtr r) (fst (by_itself W v ds)) /\ of_query r os = snd (by_itself W v ds).
Proof.
  intros h H qs q k h' q' W s r t v ds h2 os R IQ WF D IR SE S CA QA CS RUN. eapply schedule_refines; [exact (branch_reached _ _ _ _ _ _ _ R IQ WF D)|right; exact IR|exact CA| |exact QA| |exact CS|exact RUN].
  - exact (others_separate _ _ _ _ _ _ _ R IQ WF D s r t IR SE).
  - apply (others_stand _ _ _ _ _ _ _ R IQ WF D); [|exact S]. exact (query_given _ _ _ _ _ R IR).
Qed.
