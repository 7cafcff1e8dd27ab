(** Lemmas: the copy of a query is laid out like the query. *)
From Coq Require Import Lia.
From Verif Require Import Base NumFmt Value Backend Eq Render ParseArgs Build Queries Heap SpecHeap PfHeap PfHeapCopy PfHeapAlike PfHeapFrame PfHeapView HeapBuild SpecShare PfShare PfOwn PfParts PfNewItems PfMethods PfLayout PfOrders PfTables PfJoins PfCells PfConflict PfQueries PfCalls PfReading.
Open Scope nat_scope.
Local Arguments view : simpl never.

Section Copied.
Variables (own : owner) (h : heap) (m : memo) (h1 : heap).
Hypotheses (J : inv own h) (WF : well_formed h) (I : Inv h [] h1 m).
Notation im := (img h h1 m).
Notation eim := (Forall2 (eimg h h1 m)).

Definition back (x : addr) : option addr := find (fun p => match m p with Some y => Nat.eqb y x | None => false end) (seq 0 (List.length h)).
Lemma back_of : forall p x, m p = Some x -> back x = Some p.
Proof.
  intros p x M. unfold back. destruct (find _ _) as [p0|] eqn:F.
  - apply find_some in F. destruct F as [_ F]. destruct (m p0) as [y|] eqn:M0; [|discriminate]. apply Nat.eqb_eq in F. subst y. f_equal. exact (i_inj _ _ _ _ I _ _ _ M0 M).
  - exfalso. destruct (i_dom _ _ _ _ I _ _ M) as [L _]. assert (X := find_none _ _ F p). cbn beta in X. rewrite M, Nat.eqb_refl in X. discriminate X. apply in_seq. lia.
Qed.
Lemma back_is : forall p x, back x = Some p -> m p = Some x.
Proof. intros p x B. apply find_some in B. destruct B as [_ B]. destruct (m p) as [y|]; [|discriminate]. apply Nat.eqb_eq in B. congruence. Qed.
Definition own1 : owner := fun x =>
  if Nat.ltb x (List.length h) then own x
  else match back x with
       | Some p => match own p with Some (q, s) => match m q with Some q' => Some (q', s) | None => None end | None => None end
       | None => None
       end.
Lemma own1_old : forall x, x < List.length h -> own1 x = own x.
Proof. intros x L. unfold own1. destruct (Nat.ltb_spec x (List.length h)); [reflexivity|lia]. Qed.
Lemma own1_new : forall p x, m p = Some x -> own1 x = match own p with Some (q, s) => match m q with Some q' => Some (q', s) | None => None end | None => None end.
Proof.
  intros p x M. unfold own1. destruct (i_dom _ _ _ _ I _ _ M) as [_ L]. destruct (Nat.ltb_spec x (List.length h)); [lia|]. rewrite (back_of _ _ M). reflexivity.
Qed.
Lemma own1_inv : forall x q' s, own1 x = Some (q', s) -> List.length h <= x -> exists p q, m p = Some x /\ own p = Some (q, s) /\ m q = Some q'.
Proof.
  intros x q' s E L. unfold own1 in E. destruct (Nat.ltb_spec x (List.length h)); [lia|]. destruct (back x) as [p|] eqn:B; [|discriminate]. destruct (own p) as [[q s0]|] eqn:O; [|discriminate].
  destruct (m q) as [y|] eqn:M; [|discriminate]. injection E as <- <-. exists p, q. split; [apply back_is; exact B|]. auto.
Qed.
Lemma owned_open : forall p x, own p = Some x -> exists k l, get h p = Some (MkObj k l) /\ openk k = true.
Proof.
  intros p [q s] O. destruct (in_own _ _ J _ _ _ O) as (L & _). destruct (get_some _ _ L) as (k & l & G). exists k, l. split; [exact G|]. pose proof (in_kind _ _ J _ _ O) as K.
  unfold kind_of in K. rewrite G in K. cbn in K. destruct (openk k); [reflexivity|contradiction].
Qed.
Lemma frozen_lt : forall p, frozen h (RPtr p) -> p < List.length h.
Proof. intros p F. inversion F as [|p1 l1 G1 Z1 E1]; subst. eapply get_lt; eauto. Qed.
Lemma m_get : forall p p' k l, m p = Some p' -> get h p = Some (MkObj k l) -> exists l', get h1 p' = Some (MkObj k l') /\ eim l l'.
Proof.
  intros p p' k l M G. destruct (i_cop _ _ _ _ I _ _ M) as (k0 & l0 & l' & A & B & C & _); [intros []|]. rewrite G in A. injection A as <- <-. eauto.
Qed.
Lemma open_img : forall p k l r', get h p = Some (MkObj k l) -> openk k = true -> im (RPtr p) r' -> exists p', r' = RPtr p' /\ m p = Some p'.
Proof.
  intros p k l [a|p'] G O X; [contradiction|]. cbn in X. destruct X as [[F _]|[[_ M]|[_ (f & s & s' & G' & _)]]].
  - apply frozen_kind in F. unfold kind_of in F. rewrite G in F. injection F as ->. discriminate.
  - eauto.
  - rewrite G in G'. injection G' as -> _. discriminate.
Qed.
Lemma img_lt : forall r r', im r r' -> match r' with RAtom _ => True | RPtr x => x < List.length h1 end.
Proof.
  intros [a|p] [b|x] X; cbn in X; try exact Logic.I; try contradiction. destruct X as [[F <-]|[[_ M]|[_ (f & s & s' & _ & G & _)]]].
  - apply frozen_lt in F. pose proof (i_len _ _ _ _ I). lia.
  - apply (i_dom _ _ _ _ I) in M. lia.
  - eapply get_lt; eauto.
Qed.
Lemma okr_img : forall r r', okr own h r -> im r r' -> okr own1 h1 r'.
Proof.
  intros r r' O X. pose proof (img_lt _ _ X) as L. destruct r' as [b|x]; [exact Logic.I|]. split; [exact L|]. destruct r as [a|p]; [contradiction|]. destruct O as [LP OP]. cbn in X.
  destruct X as [[F <-]|[[_ M]|[LX (f & s & s' & G & G' & _)]]].
  - rewrite own1_old by exact LP. exact OP.
  - rewrite (own1_new _ _ M), OP. reflexivity.
  - destruct (own1 x) as [[q' s0]|] eqn:E; [|reflexivity]. exfalso. destruct (own1_inv _ _ _ E LX) as (p0 & q & M & O & _). destruct (owned_open _ _ O) as (k & l & G0 & K).
    destruct (m_get _ _ _ _ M G0) as (l' & G1 & _). rewrite G' in G1. injection G1 as <- _. discriminate.
Qed.
Lemma new_from : forall a b, List.length h <= a -> refers h1 a (RPtr b) -> exists p r, (kind_of h p <> Some OMethod -> m p = Some a) /\ refers h p r /\ im r (RPtr b).
Proof.
  intros a b L (k & l & x & G & IX). destruct (i_new _ _ _ _ I a) as (p & (k0 & l0 & l' & A & B & F & _) & M); [split; [exact L|eapply get_lt; eauto]|intros []|].
  rewrite G in B. injection B as <- <-.
  assert (X : exists r, In (x, r) l0 /\ im r (RPtr b)).
  { clear A G. induction F as [|[y1 y] [z1 z] l0 l [E Y] F IH]; [contradiction|]. destruct IX as [IX|IX].
    - injection IX as -> ->. cbn in E, Y. subst. exists y. split; [left; reflexivity|exact Y].
    - destruct (IH IX) as (r & I1 & I2). exists r. split; [right; exact I1|exact I2]. }
  destruct X as (r & IR & Y). exists p, r. split; [exact M|]. split; [|exact Y]. exists k, l0, x. auto.
Qed.
Lemma old_from : forall a b, a < List.length h -> refers h1 a (RPtr b) -> refers h a (RPtr b) /\ b < List.length h.
Proof.
  intros a b L (k & l & x & G & IX). rewrite (i_old _ _ _ _ I) in G by exact L. assert (R : refers h a (RPtr b)) by (exists k, l, x; auto). split; [exact R|]. exact (wf_closed _ WF _ _ R).
Qed.
Lemma kind_old : forall p, p < List.length h -> kind_of h1 p = kind_of h p.
Proof. intros p L. unfold kind_of. rewrite (i_old _ _ _ _ I) by exact L. reflexivity. Qed.
Lemma kind_m : forall p p', m p = Some p' -> kind_of h1 p' = kind_of h p.
Proof. intros p p' M. destruct (i_cop _ _ _ _ I _ _ M) as (k0 & l0 & l' & A & B & _); [intros []|]. unfold kind_of. rewrite A, B. reflexivity. Qed.
Lemma inv_copied : inv own1 h1.
Proof.
  pose proof (i_len _ _ _ _ I) as LN. split.
  - intros a b R. destruct (Nat.lt_ge_cases a (List.length h)) as [L|L].
    + destruct (old_from _ _ L R). lia.
    + destruct (new_from _ _ L R) as (p & r & _ & _ & X). exact (img_lt _ _ X).
  - intros p q s E. destruct (Nat.lt_ge_cases p (List.length h)) as [L|L].
    + rewrite own1_old in E by exact L. destruct (in_own _ _ J _ _ _ E) as (_ & OQ & c & K). assert (LQ : q < List.length h) by (unfold kind_of in K; destruct (get h q) eqn:G; [eapply get_lt; eauto|discriminate]).
      split; [lia|]. rewrite own1_old by exact LQ. split; [exact OQ|]. exists c. rewrite kind_old by exact LQ. exact K.
    + destruct (own1_inv _ _ _ E L) as (p0 & q0 & M & O & MQ). destruct (in_own _ _ J _ _ _ O) as (_ & OQ & c & K). split; [apply (i_dom _ _ _ _ I) in M; lia|].
      rewrite (own1_new _ _ MQ), OQ. split; [reflexivity|]. exists c. rewrite (kind_m _ _ MQ). exact K.
  - intros a b q s R E. destruct (Nat.lt_ge_cases b (List.length h)) as [LB|LB].
    + rewrite own1_old in E by exact LB. destruct (Nat.lt_ge_cases a (List.length h)) as [L|L].
      * destruct (old_from _ _ L R) as [R' _]. destruct (in_priv _ _ J _ _ _ _ R' E) as [->|[s' E']]; [left; reflexivity|right]. exists s'. rewrite own1_old by exact L. exact E'.
      * exfalso. destruct (new_from _ _ L R) as (p & [c|x] & _ & _ & X); [contradiction|]. cbn in X. destruct (owned_open _ _ E) as (k & l & G & K). destruct X as [[F ->]|[[_ M]|[LX _]]].
        -- apply frozen_kind in F. unfold kind_of in F. rewrite G in F. injection F as ->. discriminate.
        -- apply (i_dom _ _ _ _ I) in M. lia.
        -- lia.
    + destruct (Nat.lt_ge_cases a (List.length h)) as [L|L]; [destruct (old_from _ _ L R); lia|].
      destruct (own1_inv _ _ _ E LB) as (pb & q0 & MB & OB & MQ). destruct (new_from _ _ L R) as (pa & [c|x] & MA & RF & X); [contradiction|].
      destruct (owned_open _ _ OB) as (k & l & G & K).
      assert (x = pb). { cbn in X. destruct X as [[F ->]|[[_ M]|[_ (f & s0 & s' & _ & G' & _)]]].
        - apply frozen_lt in F. lia.
        - exact (i_inj _ _ _ _ I _ _ _ M MB).
        - exfalso. destruct (m_get _ _ _ _ MB G) as (l' & G1 & _). rewrite G' in G1. injection G1 as <- _. discriminate. }
      subst x. destruct (in_priv _ _ J _ _ _ _ RF OB) as [->|[s' E']].
      * left. assert (KQ : kind_of h q0 <> Some OMethod) by (destruct (in_own _ _ J _ _ _ OB) as (_ & _ & c & KQ); rewrite KQ; discriminate). specialize (MA KQ). congruence.
      * right. exists s'. destruct (owned_open _ _ E') as (k' & l' & G' & K'). rewrite (own1_new pa a); [rewrite E', MQ; reflexivity|]. apply MA. unfold kind_of. rewrite G'. cbn. intros Y. injection Y as ->. discriminate.
  - intros p [q s] E. destruct (Nat.lt_ge_cases p (List.length h)) as [L|L].
    + rewrite own1_old in E by exact L. rewrite kind_old by exact L. exact (in_kind _ _ J _ _ E).
    + destruct (own1_inv _ _ _ E L) as (p0 & q0 & M & O & _). rewrite (kind_m _ _ M). exact (in_kind _ _ J _ _ O).
Qed.
Lemma copied_after : after nothing nothing own h own1 h1.
Proof.
  split; [|split; [exact inv_copied|]].
  - split; [exact (i_len _ _ _ _ I)|]. split; [intros; apply own1_old; assumption|]. intros p k K. rewrite kind_old; [exact K|]. unfold kind_of in K. destruct (get h p) eqn:G; [eapply get_lt; eauto|discriminate].
  - intros p L. left. apply (i_old _ _ _ _ I). exact L.
Qed.

(** ** The parts *)
Section Query.
Variables (q q' : addr).
Hypothesis MQ : m q = Some q'.
Lemma owned_img : forall p s r', own p = Some (q, s) -> im (RPtr p) r' -> exists p', r' = RPtr p' /\ m p = Some p' /\ own1 p' = Some (q', s).
Proof.
  intros p s r' O X. destruct (owned_open _ _ O) as (k & l & G & K). destruct (open_img _ _ _ _ G K X) as (p' & -> & M). exists p'. split; [reflexivity|]. split; [exact M|]. rewrite (own1_new _ _ M), O, MQ. reflexivity.
Qed.
Lemma owned_m : forall p p' s, own p = Some (q, s) -> m p = Some p' -> own1 p' = Some (q', s).
Proof. intros p p' s O M. rewrite (own1_new _ _ M), O, MQ. reflexivity. Qed.
Lemma eim_cons : forall a r l l', eim ((a, r) :: l) l' -> exists r' l2, l' = (a, r') :: l2 /\ im r r' /\ eim l l2.
Proof. intros a r l l' E. inversion E as [|x [a' r'] l0 l2 [E1 E2] F]; subst. cbn in E1, E2. subst. eauto. Qed.
Lemma eim_nil : forall l', eim [] l' -> l' = [].
Proof. intros l' E. inversion E. reflexivity. Qed.
Lemma eim_atoms : forall l l', atoms l -> eim l l' -> l' = l.
Proof.
  intros l l' A E. induction E as [|[a r] [a' r'] l l' [E1 E2] E IH]; [reflexivity|]. cbn in E1, E2. subst a'. f_equal.
  - destruct (A a r (or_introl eq_refl)) as [x ->]. destruct r' as [y|]; [|contradiction]. cbn in E2. congruence.
  - apply IH. intros b s IN. apply (A b s). right. exact IN.
Qed.
Lemma im_atom : forall a r', im (RAtom a) r' -> r' = RAtom a.
Proof. intros a [b|] X; [cbn in X; congruence|contradiction]. Qed.
Lemma eim_items : forall rs l', eim (map item rs) l' -> exists rs', l' = map item rs' /\ Forall2 im rs rs'.
Proof.
  induction rs as [|r rs IH]; intros l' E; cbn [map] in E.
  - apply eim_nil in E. exists []. split; [exact E|constructor].
  - destruct (eim_cons _ _ _ _ E) as (r' & l2 & -> & X & E2). destruct (IH _ E2) as (rs' & -> & F). exists (r' :: rs'). split; [reflexivity|constructor; assumption].
Qed.
Lemma oks_img : forall rs rs', Forall (okr own h) rs -> Forall2 im rs rs' -> Forall (okr own1 h1) rs'.
Proof. intros rs rs' O F. induction F; inversion O; subst; constructor; auto. eapply okr_img; eauto. Qed.
Lemma parts_img : forall c sep more p l items sp sl p', parts_at h c sep more p l items -> own p = Some (q, sp) -> own l = Some (q, sl) -> m p = Some p' ->
  exists more' l' items', parts_at h1 c sep more' p' l' items' /\ own1 p' = Some (q', sp) /\ own1 l' = Some (q', sl) /\ eim more more' /\ Forall2 im items items'.
Proof.
  intros c sep more p l items sp sl p' [A B] OP OL M. destruct (m_get _ _ _ _ M A) as (x1 & G1 & E1). destruct (eim_cons _ _ _ _ E1) as (r' & more' & -> & X & E2).
  destruct (owned_img _ _ _ OL X) as (l' & -> & ML & OL'). destruct (m_get _ _ _ _ ML B) as (x2 & G2 & E3). destruct (eim_cons _ _ _ _ E3) as (r2 & it & -> & X2 & E4).
  apply im_atom in X2. subst r2. destruct (eim_items _ _ E4) as (items' & -> & F). exists more', l', items'. split; [split; assumption|]. split; [exact (owned_m _ _ _ OP M)|]. auto.
Qed.
Lemma move_conds : forall A (see : heap -> ref -> res A) k c sep p p' x, m p = Some p' -> pd_at (condsd see q k c sep [] p) own h x ->
  exists x', pd_at (condsd see q' k c sep [] p') own1 h1 x'.
Proof.
  intros A see k c sep p p' x M (l & (P & OP & OL) & F). destruct (parts_img _ _ _ _ _ _ _ _ _ P OP OL M) as (more' & l' & items' & P' & OP' & OL' & E & F'). apply eim_nil in E. subst.
  exists items', l'. split; [split; [exact P'|split; assumption]|]. eapply oks_img; eauto.
Qed.
Lemma move_conflict : forall k p p' x, m p = Some p' -> pd_at (conflictd q k p) own h x -> exists x', pd_at (conflictd q' k p') own1 h1 x'.
Proof.
  intros k p p' [r x] M [O (l & (P & OP & OL) & F)]. cbn [fst snd] in *. destruct (parts_img _ _ _ _ _ _ _ _ _ P OP OL M) as (more' & l' & items' & P' & OP' & OL' & E & F').
  destruct (eim_cons _ _ _ _ E) as (r' & l2 & -> & X & E2). apply eim_nil in E2. subst. exists (r', items'). split; [exact (okr_img _ _ O X)|]. exists l'. split; [split; [exact P'|split; assumption]|]. eapply oks_img; eauto.
Qed.
Lemma ats_img : forall X (P P' : nat -> ref -> X -> Prop) items items' i xs, (forall j r r' x, P j r x -> im r r' -> exists x', P' j r' x') ->
  ats P i items xs -> Forall2 im items items' -> exists xs', ats P' i items' xs'.
Proof.
  intros X P P' items items' i xs H A F. revert i xs A. induction F as [|r r' items items' E F IH]; intros i [|x xs] A; cbn in A; try contradiction.
  - exists []. exact Logic.I.
  - destruct A as [A B]. destruct (H _ _ _ _ A E) as [x' A']. destruct (IH _ _ B) as [xs' B']. exists (x' :: xs'). split; assumption.
Qed.
Lemma ord_img : forall k j r r' x, ord_at own q h k j r x -> im r r' -> exists x', ord_at own1 q' h1 k j r' x'.
Proof.
  intros k j r r' [c s] (a & -> & O & G & C) X. destruct (owned_img _ _ _ O X) as (a' & -> & M & O'). destruct (m_get _ _ _ _ M G) as (l' & G' & E).
  destruct (eim_cons _ _ _ _ E) as (r1 & l1 & -> & X1 & E1). destruct (eim_cons _ _ _ _ E1) as (r2 & l2 & -> & X2 & E2). apply eim_nil in E2. subst. apply im_atom in X2. subst r2.
  exists (r1, s). exists a'. split; [reflexivity|]. split; [exact O'|]. split; [exact G'|]. exact (okr_img _ _ C X1).
Qed.
Lemma move_orders : forall k c p p' x, m p = Some p' -> pd_at (ordersd q k c p) own h x -> exists x', pd_at (ordersd q' k c p') own1 h1 x'.
Proof.
  intros k c p p' x M (l & items & (P & OP & OL) & A). destruct (parts_img _ _ _ _ _ _ _ _ _ P OP OL M) as (more' & l' & items' & P' & OP' & OL' & E & F'). apply eim_nil in E. subst.
  destruct (ats_img _ _ (ord_at own1 q' h1 k) _ _ _ _ (ord_img k) A F') as [xs' A']. exists xs', l', items'. split; [split; [exact P'|split; assumption]|exact A'].
Qed.
Lemma join_img : forall k i j r r' x, join_at own q h k i j r x -> im r r' -> exists x', join_at own1 q' h1 k i j r' x'.
Proof.
  intros k i j r r' [ty n al ons] (d & t & tj & o & ol & -> & O1 & O2 & O3 & O4 & O5 & G1 & G2 & G3 & P & C1 & C2 & C3) X. cbn [j_type j_name j_alias j_ons] in *.
  destruct (owned_img _ _ _ O1 X) as (d' & -> & MD & OD). destruct (m_get _ _ _ _ MD G1) as (l' & GD & E). clear X.
  destruct (eim_cons _ _ _ _ E) as (r1 & l1 & -> & X1 & E1). destruct (eim_cons _ _ _ _ E1) as (r2 & l2 & -> & X2 & E2). destruct (eim_cons _ _ _ _ E2) as (r3 & l3 & -> & X3 & E3).
  destruct (eim_cons _ _ _ _ E3) as (r4 & l4 & -> & X4 & E4). destruct (eim_cons _ _ _ _ E4) as (r5 & l5 & -> & X5 & E5). destruct (eim_cons _ _ _ _ E5) as (r6 & l6 & -> & X6 & E6). apply eim_nil in E6. subst.
  apply im_atom in X1, X2, X3, X5. subst. destruct (owned_img _ _ _ O2 X4) as (t' & -> & MT & OT). destruct (owned_img _ _ _ O4 X6) as (o' & -> & MO & OO).
  destruct (m_get _ _ _ _ MT G2) as (lt & GT & ET). destruct (eim_cons _ _ _ _ ET) as (n' & l7 & -> & Y1 & ET1). destruct (eim_cons _ _ _ _ ET1) as (al' & l8 & -> & Y2 & ET2). destruct (eim_cons _ _ _ _ ET2) as (tr & l9 & -> & Y3 & ET3). apply eim_nil in ET3. subst.
  destruct (owned_img _ _ _ O3 Y3) as (tj' & -> & MTJ & OTJ). destruct (m_get _ _ _ _ MTJ G3) as (l10 & GTJ & ETJ). apply eim_nil in ETJ. subst.
  destruct (parts_img _ _ _ _ _ _ _ _ _ P O4 O5 MO) as (more' & ol' & ons' & P' & _ & OL' & EM & F'). apply eim_nil in EM. subst.
  exists (MkJoin ty n' al' ons'). exists d', t', tj', o', ol'. cbn [j_type j_name j_alias j_ons]. split; [reflexivity|]. do 5 (split; [assumption|]). split; [exact GD|]. split; [exact GT|]. split; [exact GTJ|]. split; [exact P'|].
  split; [exact (okr_img _ _ C1 Y1)|]. split; [exact (okr_img _ _ C2 Y2)|]. eapply oks_img; eauto.
Qed.
Lemma tab_img : forall k i r r' x, tab_at own q h k i r x -> im r r' -> exists x', tab_at own1 q' h1 k i r' x'.
Proof.
  intros k i r r' [n al js] (a & j & jl & g & GI & -> & O1 & O2 & G1 & G2 & C1 & C2 & A) X. cbn [tb_name tb_alias tb_joins] in *.
  destruct (owned_img _ _ _ O1 X) as (a' & -> & MA & OA). destruct (m_get _ _ _ _ MA G1) as (lt & GT & ET).
  destruct (eim_cons _ _ _ _ ET) as (n' & l7 & -> & Y1 & ET1). destruct (eim_cons _ _ _ _ ET1) as (al' & l8 & -> & Y2 & ET2). destruct (eim_cons _ _ _ _ ET2) as (jr & l9 & -> & Y3 & ET3). apply eim_nil in ET3. subst.
  destruct (owned_img _ _ _ O2 Y3) as (j' & -> & MJ & OJ). destruct (m_get _ _ _ _ MJ G2) as (lj & GJ & EJ). destruct (eim_items _ _ EJ) as (jl' & -> & F).
  destruct (ats_img _ _ (fun n => join_at own1 q' h1 k i (g n)) _ _ _ _ (fun n => join_img k i (g n)) A F) as [js' A']. exists (MkTable n' al' js'). exists a', j', jl', g. cbn [tb_name tb_alias tb_joins].
  split; [rewrite <- (forall2_len _ _ _ _ _ F); exact GI|]. split; [reflexivity|]. split; [exact OA|]. split; [exact OJ|]. split; [exact GT|]. split; [exact GJ|]. split; [exact (okr_img _ _ C1 Y1)|]. split; [exact (okr_img _ _ C2 Y2)|]. exact A'.
Qed.
Lemma move_tabs : forall k c p p' x, m p = Some p' -> pd_at (tabsd q k c p) own h x -> exists x', pd_at (tabsd q' k c p') own1 h1 x'.
Proof.
  intros k c p p' x M (l & items & (P & OP & OL) & A). destruct (parts_img _ _ _ _ _ _ _ _ _ P OP OL M) as (more' & l' & items' & P' & OP' & OL' & E & F'). apply eim_nil in E. subst.
  destruct (ats_img _ _ (tab_at own1 q' h1 k) _ _ _ _ (tab_img k) A F') as [xs' A']. exists xs', l', items'. split; [split; [exact P'|split; assumption]|exact A'].
Qed.
Lemma move_cell : forall V k c p p' (mk : V -> list (label * ref)) x, (forall x, atoms (mk x)) -> m p = Some p' -> pd_at (celld q k c p mk) own h x -> exists x', pd_at (celld q' k c p' mk) own1 h1 x'.
Proof.
  intros V k c p p' mk x AT M [A B]. destruct (m_get _ _ _ _ M A) as (l' & G & E). apply (eim_atoms _ _ (AT x)) in E. subst. exists x. split; [exact G|exact (owned_m _ _ _ B M)].
Qed.
Lemma move_opts : forall V k c p p' (kvs : V -> list (string * string)) x, m p = Some p' -> pd_at (optsd q k c p kvs) own h x -> exists x', pd_at (optsd q' k c p' kvs) own1 h1 x'.
Proof.
  intros V k c p p' kvs x M (d & A & B & C & D). destruct (m_get _ _ _ _ M A) as (l' & G & E). destruct (eim_cons _ _ _ _ E) as (r1 & l1 & -> & X1 & E1). apply eim_nil in E1. subst.
  destruct (owned_img _ _ _ D X1) as (d' & -> & MD & OD). destruct (m_get _ _ _ _ MD C) as (l2 & GD & ED). apply (eim_atoms _ _ (atoms_kv _)) in ED. subst.
  exists x, d'. split; [exact G|]. split; [exact (owned_m _ _ _ B M)|]. auto.
Qed.
Lemma move_out : forall k p p' x, m p = Some p' -> pd_at (outd q k p) own h x -> exists x', pd_at (outd q' k p') own1 h1 x'.
Proof.
  intros k p p' f M (A & B & C). destruct (m_get _ _ _ _ M A) as (l' & G & E).
  destruct (eim_cons _ _ _ _ E) as (r1 & l1 & -> & X1 & E1). destruct (eim_cons _ _ _ _ E1) as (r2 & l2 & -> & X2 & E2). destruct (eim_cons _ _ _ _ E2) as (r3 & l3 & -> & X3 & E3). destruct (eim_cons _ _ _ _ E3) as (r4 & l4 & -> & X4 & E4). apply eim_nil in E4. subst.
  exists (fun g => match g with OFile => r1 | OFields => r2 | OLines => r3 | OEncl => r4 end). split; [exact G|]. split; [exact (owned_m _ _ _ B M)|]. intros []; eapply okr_img; eauto.
Qed.
Definition moved (a : string -> addr) (k : string) : addr := match m (a k) with Some x => x | None => 0 end.
Lemma move_qobj : forall c ks more d a b, atoms (more b) -> (forall k, In k ks -> exists s, own (a k) = Some (q, s)) -> pd_at (qobjd q c ks more d a) own h b ->
  (forall k, In k ks -> m (a k) = Some (moved a k)) /\ exists d', pd_at (qobjd q' c ks more d' (moved a)) own1 h1 b.
Proof.
  intros c ks more d a b AT OW (A & B & C & D). destruct (m_get _ _ _ _ MQ A) as (l' & G & E). destruct (eim_cons _ _ _ _ E) as (r1 & l1 & -> & X1 & E1).
  destruct (owned_img _ _ _ D X1) as (d' & -> & MD & OD). destruct (m_get _ _ _ _ MD C) as (l2 & GD & ED).
  assert (Y : (forall k, In k ks -> m (a k) = Some (moved a k)) /\ l1 = entries ks (moved a) ++ more b).
  { clear G ED GD A C E. revert l1 E1 OW. induction ks as [|k ks IH]; intros l1 E1 OW.
    - cbn in E1. apply (eim_atoms _ _ AT) in E1. subst. split; [intros k []|reflexivity].
    - cbn [entries map app] in E1. destruct (eim_cons _ _ _ _ E1) as (r2 & l3 & -> & X2 & E2). destruct (OW k (or_introl eq_refl)) as [s O]. destruct (owned_img _ _ _ O X2) as (x & -> & MX & _).
      destruct (IH _ E2) as [IH1 IH2]; [intros; apply OW; right; assumption|]. assert (x = moved a k) by (unfold moved; rewrite MX; reflexivity). subst x.
      split; [intros k0 [<-|IK]; [exact MX|apply IH1; exact IK]|]. cbn [entries map app]. rewrite IH2. reflexivity. }
  destruct Y as [Y ->]. split; [exact Y|]. exists d'. split; [exact G|]. split; [rewrite (own1_new _ _ MQ), B; reflexivity|]. split; [|exact OD]. rewrite GD. do 2 f_equal.
  clear G GD A C E E1. revert l2 ED. induction ks as [|k ks IH]; intros l2 ED; cbn [qdict flat_map app] in ED.
  - apply eim_nil in ED. subst. reflexivity.
  - destruct (eim_cons _ _ _ _ ED) as (r2 & l3 & -> & X2 & E2). destruct (eim_cons _ _ _ _ E2) as (r3 & l4 & -> & X3 & E3). apply im_atom in X2. subst r2. cbn [qdict flat_map app].
    specialize (IH (fun k0 IK => OW k0 (or_intror IK)) (fun k0 IK => Y k0 (or_intror IK)) _ E3). rewrite IH. do 2 f_equal. f_equal.
    destruct (OW k (or_introl eq_refl)) as [s O]. destruct (owned_img _ _ _ O X3) as (x & -> & MX & _). rewrite (Y k (or_introl eq_refl)) in MX. injection MX as <-. reflexivity.
Qed.
Lemma at_conds : forall A (see : heap -> ref -> res A) k c sep p x, pd_at (condsd see q k c sep [] p) own h x -> exists s, own p = Some (q, s).
Proof. intros A see k c sep p x (l & (P & OP & OL) & F). eauto. Qed.
Lemma at_conflict : forall k p x, pd_at (conflictd q k p) own h x -> exists s, own p = Some (q, s).
Proof. intros k p [r x] [O (l & (P & OP & OL) & F)]. eauto. Qed.
Lemma at_orders : forall k c p x, pd_at (ordersd q k c p) own h x -> exists s, own p = Some (q, s).
Proof. intros k c p x (l & items & (P & OP & OL) & A). eauto. Qed.
Lemma at_tabs : forall k c p x, pd_at (tabsd q k c p) own h x -> exists s, own p = Some (q, s).
Proof. intros k c p x (l & items & (P & OP & OL) & A). eauto. Qed.
Lemma at_cell : forall V k c p (mk : V -> list (label * ref)) x, pd_at (celld q k c p mk) own h x -> exists s, own p = Some (q, s).
Proof. intros V k c p mk x [A B]. eauto. Qed.
Lemma at_opts : forall V k c p (kvs : V -> list (string * string)) x, pd_at (optsd q k c p kvs) own h x -> exists s, own p = Some (q, s).
Proof. intros V k c p kvs x (d & A & B & C & D). eauto. Qed.
Lemma at_out : forall k p x, pd_at (outd q k p) own h x -> exists s, own p = Some (q, s).
Proof. intros k p f (A & B & C). eauto. Qed.
Ltac at_part P := first [exact (at_conds _ _ _ _ _ _ _ P)|exact (at_conflict _ _ _ P)|exact (at_orders _ _ _ _ P)|exact (at_tabs _ _ _ _ P)|exact (at_opts _ _ _ _ _ _ P)|exact (at_out _ _ _ P)|exact (at_cell _ _ _ _ _ _ P)].
Ltac at_some := match goal with P : pd_at _ own h _ |- _ => at_part P end.
Ltac all_at := let k := fresh "k" in let IK := fresh "IK" in intros k IK; cbv [sel_keys ins_keys upd_keys del_keys In] in IK; repeat (destruct IK as [<-|IK]; [at_some|]); contradiction.
Lemma laid_copied : forall k, laid k q own h -> laid k q' own1 h1.
Proof.
  assert (AL : forall b, atoms (none_more b)) by (intros b a r []).
  assert (AF : forall n b, atoms (flagm n b)) by (intros n b a r [E|[]]; injection E as <- <-; eexists; reflexivity).
  assert (AB : forall n (b : bool), atoms [(LAttr n, abool b)]) by (intros n b a r [E|[]]; injection E as <- <-; eexists; reflexivity).
  assert (AM : forall l, atoms (lim_refs l)) by (intros [[l|] [o|]] a r [E|[E|[]]]; injection E as <- <-; eexists; reflexivity).
  intros [] [[[d a] x] P]; cbn [seld insd updd deld mapd packd pd_at fst snd] in P.
  - destruct x as (b & x0 & x1 & x2 & x3 & x4 & x5 & x6 & x7 & x8 & x9). destruct P as (PQ & P0 & P1 & P2 & P3 & P4 & P5 & P6 & P7 & P8 & P9). cbn [fst snd] in *.
    destruct (move_qobj _ sel_keys _ _ a _ (AL b) ltac:(all_at) PQ) as (MK & d' & PQ').
    destruct (move_opts _ _ _ _ _ _ _ (MK "select_options" ltac:(cbv; tauto)) P0) as [y0 Y0]. destruct (move_conds _ _ _ _ _ _ _ _ (MK "columns" ltac:(cbv; tauto)) P1) as [y1 Y1].
    destruct (move_tabs _ _ _ _ _ (MK "tables" ltac:(cbv; tauto)) P2) as [y2 Y2]. destruct (move_conds _ _ _ _ _ _ _ _ (MK "where" ltac:(cbv; tauto)) P3) as [y3 Y3].
    destruct (move_orders _ _ _ _ _ (MK "group_by" ltac:(cbv; tauto)) P4) as [y4 Y4]. destruct (move_conds _ _ _ _ _ _ _ _ (MK "having" ltac:(cbv; tauto)) P5) as [y5 Y5].
    destruct (move_orders _ _ _ _ _ (MK "order_by" ltac:(cbv; tauto)) P6) as [y6 Y6]. destruct (move_cell _ _ _ _ _ _ _ AM (MK "limit" ltac:(cbv; tauto)) P7) as [y7 Y7].
    destruct (move_out _ _ _ _ (MK "into_outfile" ltac:(cbv; tauto)) P8) as [y8 Y8]. destruct (move_cell _ _ _ _ _ _ _ (AB _) (MK "select_for_update" ltac:(cbv; tauto)) P9) as [y9 Y9].
    exists ((d', moved a), (b, (y0, (y1, (y2, (y3, (y4, (y5, (y6, (y7, (y8, y9))))))))))). repeat (split; [assumption|]). assumption.
  - destruct x as (b & x0 & x1 & x2 & x3 & x4 & x5). destruct P as (PQ & P0 & P1 & P2 & P3 & P4 & P5). cbn [fst snd] in *.
    destruct (move_qobj _ ins_keys _ _ a _ (AL b) ltac:(all_at) PQ) as (MK & d' & PQ').
    destruct (move_cell _ _ _ _ _ _ _ (AB _) (MK "keyword" ltac:(cbv; tauto)) P0) as [y0 Y0]. destruct (move_opts _ _ _ _ _ _ _ (MK "insert_options" ltac:(cbv; tauto)) P1) as [y1 Y1].
    destruct (move_tabs _ _ _ _ _ (MK "tables" ltac:(cbv; tauto)) P2) as [y2 Y2]. destruct (move_conds _ _ _ _ _ _ _ _ (MK "values" ltac:(cbv; tauto)) P3) as [y3 Y3].
    destruct (move_conds _ _ _ _ _ _ _ _ (MK "on_duplicate_key_update" ltac:(cbv; tauto)) P4) as [y4 Y4]. destruct (move_conflict _ _ _ _ (MK "on_conflict_do_update" ltac:(cbv; tauto)) P5) as [y5 Y5].
    exists ((d', moved a), (b, (y0, (y1, (y2, (y3, (y4, y5))))))). repeat (split; [assumption|]). assumption.
  - destruct x as (b & x0 & x1 & x2 & x3). destruct P as (PQ & P0 & P1 & P2 & P3). cbn [fst snd] in *.
    destruct (move_qobj _ upd_keys _ _ a _ (AF _ b) ltac:(all_at) PQ) as (MK & d' & PQ').
    destruct (move_opts _ _ _ _ _ _ _ (MK "update_options" ltac:(cbv; tauto)) P0) as [y0 Y0]. destruct (move_tabs _ _ _ _ _ (MK "tables" ltac:(cbv; tauto)) P1) as [y1 Y1].
    destruct (move_conds _ _ _ _ _ _ _ _ (MK "values" ltac:(cbv; tauto)) P2) as [y2 Y2]. destruct (move_conds _ _ _ _ _ _ _ _ (MK "where" ltac:(cbv; tauto)) P3) as [y3 Y3].
    exists ((d', moved a), (b, (y0, (y1, (y2, y3))))). repeat (split; [assumption|]). assumption.
  - destruct x as (b & x0 & x1 & x2 & x3). destruct P as (PQ & P0 & P1 & P2 & P3). cbn [fst snd] in *.
    destruct (move_qobj _ del_keys _ _ a _ (AF _ b) ltac:(all_at) PQ) as (MK & d' & PQ').
    destruct (move_opts _ _ _ _ _ _ _ (MK "delete_options" ltac:(cbv; tauto)) P0) as [y0 Y0]. destruct (move_tabs _ _ _ _ _ (MK "tables" ltac:(cbv; tauto)) P1) as [y1 Y1].
    destruct (move_tabs _ _ _ _ _ (MK "references" ltac:(cbv; tauto)) P2) as [y2 Y2]. destruct (move_conds _ _ _ _ _ _ _ _ (MK "where" ltac:(cbv; tauto)) P3) as [y3 Y3].
    exists ((d', moved a), (b, (y0, (y1, (y2, y3))))). repeat (split; [assumption|]). assumption.
Qed.
End Query.
End Copied.
Lemma twin_img : forall h p h' p' m, well_formed h -> Inv h [] h' m -> img h h' m (RPtr p) (RPtr p') -> forall r r', twin h p h' p' r r' -> img h h' m r r'.
Proof.
  intros h p h' p' m WF I X r r' T. induction T as [|x x' k l k' l' i a r a' r' T IH G G' N N']; [exact X|].
  destruct (al_obj _ _ _ (img_alike _ _ _ WF I) _ _ IH) as (q & k0 & l0 & l0' & E & G0 & G0' & F). injection E as <-. rewrite G in G0. injection G0 as <- <-. rewrite G' in G0'. injection G0' as <- <-.
  clear - F N N'. revert l l' F N N'. induction i as [|i IH]; intros l l' F N N'; destruct F as [|u v l l' [_ U] F]; try discriminate; cbn in N, N'.
  - injection N as ->. injection N' as ->. exact U.
  - exact (IH _ _ F N N').
Qed.
Lemma copied : forall own h p h' p', inv own h -> well_formed h -> okr own h (RPtr p) -> deepcopy h p = Ok (h', p') ->
  exists own', after nothing nothing own h own' h' /\ okr own' h' (RPtr p') /\ forall k y x, twin h p h' p' (RPtr y) (RPtr x) -> laid k y own h -> laid k x own' h'.
Proof.
  intros own h p h' p' J WF O D. destruct (deepcopy_inv _ _ _ _ WF (proj1 O) D) as (m & I & X). exists (own1 own h m). split; [exact (copied_after _ _ _ _ J WF I)|].
  split; [exact (okr_img _ _ _ _ J I _ _ O X)|]. intros k y x T L. pose proof (twin_img _ _ _ _ _ WF I X _ _ T) as Y.
  destruct (laid_kind _ _ _ _ L) as [K _]. unfold kind_of in K. destruct (get h y) as [[k0 l]|] eqn:G; [|discriminate]. injection K as ->.
  destruct (open_img _ _ _ _ _ _ _ G eq_refl Y) as (z & E & M). injection E as <-. exact (laid_copied _ _ _ _ J I _ _ M _ L).
Qed.
