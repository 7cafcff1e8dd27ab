(** Lemmas: the copy and the rest of the heap are independent. *)
From Coq Require Import Lia.
From Verif Require Import Base NumFmt Value Backend Eq Render Heap SpecHeap PfHeap PfHeapCopy PfHeapAlike.
Open Scope nat_scope.

Lemma inv_start : forall h, Inv h [] h memo0.
Proof.
  intros h. constructor; try (intros; unfold memo0 in *; discriminate); auto.
  - intros q [].
  - intros q H. lia.
Qed.
Lemma img_alike : forall h0 h m, well_formed h0 -> Inv h0 [] h m -> alike_by (img h0 h m) h0 h.
Proof.
  intros h0 h m WF I. constructor.
  - intros a [b|q] H; simpl in H; [congruence|contradiction].
  - intros p [b|q] H; simpl in H; [contradiction|]. destruct H as [[F <-]|[[K M]|[L (f & s & s' & G & G' & M)]]].
    + inversion F as [|p' l G Z E]; subst. exists p, OTuple, l, l. split; [reflexivity|]. split; [exact G|].
      split; [rewrite (i_old _ _ _ _ I) by (eapply get_lt; eauto); exact G|].
      clear G F. induction l as [|[a r] l IH]; constructor.
      * split; [reflexivity|]. simpl. assert (Zr : frozen h0 r) by (eapply Z; left; reflexivity).
        destruct r as [b|q]; simpl; [reflexivity|]. left. auto.
      * apply IH. intros; eapply Z; right; eauto.
    + destruct (i_cop _ _ _ _ I _ _ M) as (k & l & l' & A1 & A2 & A3 & _); [intros []|].
      exists q, k, l, l'. auto.
    + exists q, OMethod. eexists. eexists. split; [reflexivity|]. split; [exact G|]. split; [exact G'|].
      constructor; [split; reflexivity|]. constructor; [|constructor]. split; [reflexivity|]. simpl. right. left.
      split; [eapply method_self; eauto|exact M].
  - intros p q p' q' H H' K K'. simpl in H, H'.
    assert (X : forall x y, kind_of h0 x <> Some OMethod ->
      (frozen h0 (RPtr x) /\ x = y \/ kind_of h0 x <> Some OMethod /\ m x = Some y \/
       List.length h0 <= y /\ (exists f s s', get h0 x = Some (MkObj OMethod [(LFunc, RAtom (AFun f)); (LSelf, RPtr s)]) /\
         get h y = Some (MkObj OMethod [(LFunc, RAtom (AFun f)); (LSelf, RPtr s')]) /\ m s = Some s')) ->
      frozen h0 (RPtr x) /\ x = y /\ x < List.length h0 \/ m x = Some y).
    { intros x y Kx [[F E]|[[_ M]|[_ (f & s & s' & G & _)]]].
      - left. split; [exact F|]. split; [exact E|]. inversion F as [|p1 l1 G1 Z1 E1]; subst. eapply get_lt; eauto.
      - right. exact M.
      - exfalso. apply Kx. unfold kind_of. rewrite G. reflexivity. }
    apply X in H; [|exact K]. apply X in H'; [|exact K'].
    destruct H as [(F & E & L)|M], H' as [(F' & E' & L')|M'].
    + lia.
    + pose proof (i_dom _ _ _ _ I _ _ M') as D. split; intros E2; [|lia]. exfalso. apply (i_nfr _ _ _ _ I _ _ M'). rewrite <- E2. exact F.
    + pose proof (i_dom _ _ _ _ I _ _ M) as D. split; intros E2; [|lia]. exfalso. apply (i_nfr _ _ _ _ I _ _ M). rewrite E2. exact F'.
    + split; intros E2; [congruence|]. subst q'. eapply i_inj; eauto.
Qed.

Lemma deepcopy_inv : forall h p h1 p1, well_formed h -> p < List.length h -> deepcopy h p = Ok (h1, p1) ->
  exists m, Inv h [] h1 m /\ img h h1 m (RPtr p) (RPtr p1).
Proof.
  intros h p h1 p1 WF L H. unfold deepcopy in H.
  destruct (dcopy _ h memo0 (RPtr p)) as [[[h2 m2] r2]|] eqn:E; [|discriminate]. cbn [bind] in H.
  destruct r2 as [a|q]; [discriminate|]. injection H as <- <-.
  destruct (dcopy_good h WF _ [] h memo0 (RPtr p) _ _ _ (inv_start h) L E) as (I & _ & J & _).
  exists m2. auto.
Qed.
Lemma deepcopy_alike : forall h p h1 p1, well_formed h -> p < List.length h -> deepcopy h p = Ok (h1, p1) ->
  alike h (RPtr p) h1 (RPtr p1).
Proof.
  intros h p h1 p1 WF L H. destruct (deepcopy_inv _ _ _ _ WF L H) as (m & I & J).
  exists (img h h1 m). split; [apply img_alike; assumption|exact J].
Qed.
Lemma alike_decode : forall h r h' r' n, alike h r h' r' -> decode h n r = decode h' n r'.
Proof. intros h r h' r' n (B & AL & H). eapply al_decode; eauto. Qed.
Lemma alike_reach : forall h h' B, alike_by B h h' -> forall r s, reach h r s -> forall r', B r r' -> exists s', B s s' /\ reach h' r' s'.
Proof.
  intros h h' B AL r s H. induction H as [r|p r s Hr H IH]; intros r' J; [exists r'; split; [exact J|apply reach_refl]|].
  destruct (al_obj _ _ _ AL _ _ J) as (q & k & l & l' & -> & G & G' & F).
  destruct Hr as (k1 & l1 & a & G1 & Ha). rewrite G in G1. injection G1 as <- <-.
  assert (X : exists r1, In (a, r1) l' /\ B r r1).
  { clear G G'. induction F as [|[b x] [b' x'] l l' [E J'] F IHF]; [contradiction|]. simpl in E, J'. subst b'.
    destruct Ha as [Ha|Ha].
    - injection Ha as <- <-. exists x'. split; [now left|exact J'].
    - destruct (IHF Ha) as (r1 & H1 & H2). exists r1. split; [now right|exact H2]. }
  destruct X as (r1 & H1 & H2). destruct (IH _ H2) as (s' & Hs & Hr'). exists s'. split; [exact Hs|].
  eapply reach_step; [|exact Hr']. exists k, l', a. auto.
Qed.

(** Success: exactly when no generator is inside. *)
Lemma deepcopy_cases : forall h p, well_formed h -> p < List.length h ->
  (exists h1 p1, deepcopy h p = Ok (h1, p1)) \/ (deepcopy h p = Err ETypeError /\ has_gen h (RPtr p)).
Proof.
  intros h p WF L. destruct (wf_rank _ WF) as (rank & RB & RD).
  set (n := List.length h).
  assert (EN : enough h rank memo0 (RPtr p) <= n * (n + 4) + n + 4).
  { unfold enough. pose proof (todo_all h memo0) as T. pose proof (weight_bound h rank RB (RPtr p) L) as W. fold n in T, W |- *. nia. }
  destruct (dcopy_enough h WF rank RB RD _ [] h memo0 (RPtr p) (inv_start h) L EN) as [[[[h1 m1] r1] E]|[E G]].
  - left. destruct (dcopy_good h WF _ [] h memo0 (RPtr p) _ _ _ (inv_start h) L E) as (_ & _ & J & _).
    destruct r1 as [a|q]; [contradiction|]. exists h1, q. unfold deepcopy. fold n. rewrite E. reflexivity.
  - right. split; [|exact G]. unfold deepcopy. fold n. rewrite E. reflexivity.
Qed.
Lemma deepcopy_no_gen : forall h p h1 p1, well_formed h -> p < List.length h -> deepcopy h p = Ok (h1, p1) ->
  ~ has_gen h (RPtr p).
Proof.
  intros h p h1 p1 WF L H (q & l & R & G). destruct (deepcopy_inv _ _ _ _ WF L H) as (m & I & J).
  destruct (alike_reach _ _ _ (img_alike _ _ _ WF I) _ _ R _ J) as (s' & Js & _).
  destruct s' as [a|q']; [contradiction|]. destruct Js as [[F _]|[[K M]|[_ (f & s & s' & G' & _)]]].
  - apply frozen_kind in F. unfold kind_of in F. rewrite G in F. discriminate.
  - destruct (i_cop _ _ _ _ I _ _ M) as (k & l1 & l' & A1 & _ & _ & A4); [intros []|]. congruence.
  - congruence.
Qed.

(** ** Separation *)
Definition inside (Q : addr -> Prop) (r : ref) : Prop := match r with RAtom _ => True | RPtr q => Q q end.
Definition sealed (Q : addr -> Prop) (h : heap) : Prop :=
  (forall q, Q q -> q < List.length h) /\ (forall q r, Q q -> refers h q r -> inside Q r).
Definition separate (KA KB : list ref) (h : heap) : Prop := exists A B : addr -> Prop,
  sealed A h /\ sealed B h /\ (forall r, In r KA -> inside A r) /\ (forall r, In r KB -> inside B r) /\
  (forall q k, A q -> B q -> kind_of h q = Some k -> ~ mutable k).
Lemma separate_sym : forall KA KB h, separate KA KB h -> separate KB KA h.
Proof. intros KA KB h (A & B & SA & SB & HA & HB & X). exists B, A. split; [exact SB|]. split; [exact SA|]. eauto 8. Qed.
Lemma reach_inside : forall Q h r s, sealed Q h -> reach h r s -> inside Q r -> inside Q s.
Proof. intros Q h r s [S1 S2] H. induction H as [r|p r s Hr H IH]; intros J; [exact J|]. apply IH. eapply S2; eauto. Qed.
Lemma held_inside : forall Q h K r, sealed Q h -> (forall x, In x K -> inside Q x) -> held h K r -> inside Q r.
Proof.
  intros Q h K r SQ HK [[a ->]|(k & Hk & Hr)]; [exact Coq.Init.Logic.I|]. eapply reach_inside; eauto.
Qed.
Lemma kind_put : forall h p k l l' q, get h p = Some (MkObj k l) -> kind_of (put h p (MkObj k l')) q = kind_of h q.
Proof.
  intros h p k l l' q G. unfold kind_of. destruct (Nat.eq_dec q p) as [->|N].
  - rewrite get_put_same by (eapply get_lt; eauto). rewrite G. reflexivity.
  - rewrite get_put_other by exact N. reflexivity.
Qed.
Lemma step_separate : forall KA KB h KA' h', separate KA KB h -> step KA h KA' h' ->
  separate KA' KB h' /\ exists B : addr -> Prop, sealed B h /\ (forall r, In r KB -> inside B r) /\
    (forall q, B q -> get h' q = get h q).
Proof.
  intros KA KB h KA' h' (A & B & SA & SB & HA & HB & X) H. destruct H as [k l Hl|p k l l' Hp G Mk Hl].
  - assert (Lh : List.length (h ++ [MkObj k l]) = S (List.length h)) by apply app_len.
    assert (GB : forall q, B q -> get (h ++ [MkObj k l]) q = get h q) by (intros q Hq; apply get_old; apply (proj1 SB); exact Hq).
    split; [|exists B; auto].
    exists (fun q => A q \/ q = List.length h), B. split; [|split; [|split; [|split]]].
    + split.
      * intros q [Hq| ->]; [apply (proj1 SA) in Hq; lia|lia].
      * intros q r [Hq| ->] (k1 & l1 & a & G1 & Ha).
        -- rewrite get_old in G1 by (apply (proj1 SA); exact Hq).
           assert (J : inside A r) by (eapply (proj2 SA); [exact Hq|]; exists k1, l1, a; auto).
           destruct r; simpl in *; auto.
        -- rewrite get_new in G1. injection G1 as <- <-.
           assert (J : inside A r) by (eapply held_inside; eauto). destruct r; simpl in *; auto.
    + split.
      * intros q Hq. apply (proj1 SB) in Hq. lia.
      * intros q r Hq (k1 & l1 & a & G1 & Ha). rewrite GB in G1 by exact Hq. eapply (proj2 SB); [exact Hq|]. exists k1, l1, a. auto.
    + intros r [<-|Hr]; [right; reflexivity|]. specialize (HA r Hr). destruct r; simpl in *; auto.
    + exact HB.
    + intros q k1 [Hq| ->] Hq' K1.
      * unfold kind_of in K1. rewrite GB in K1 by exact Hq'. eapply X; eauto.
      * apply (proj1 SB) in Hq'. lia.
  - assert (Ap : A p) by (exact (held_inside A h KA (RPtr p) SA HA Hp)).
    assert (NB : forall q, B q -> q <> p).
    { intros q Hq ->. eapply X; eauto. unfold kind_of. rewrite G. reflexivity. }
    assert (GB : forall q, B q -> get (put h p (MkObj k l')) q = get h q) by (intros q Hq; apply get_put_other; apply NB; exact Hq).
    split; [|exists B; auto].
    exists A, B. split; [|split; [|split; [exact HA|split; [exact HB|]]]].
    + split.
      * intros q Hq. rewrite put_length. apply (proj1 SA). exact Hq.
      * intros q r Hq (k1 & l1 & a & G1 & Ha). destruct (Nat.eq_dec q p) as [->|N].
        -- rewrite get_put_same in G1 by (eapply get_lt; eauto). injection G1 as <- <-.
           apply (held_inside A h KA r SA HA). eapply Hl; eauto.
        -- rewrite get_put_other in G1 by exact N. eapply (proj2 SA); [exact Hq|]. exists k1, l1, a. auto.
    + split.
      * intros q Hq. rewrite put_length. apply (proj1 SB). exact Hq.
      * intros q r Hq (k1 & l1 & a & G1 & Ha). rewrite GB in G1 by exact Hq. eapply (proj2 SB); [exact Hq|]. exists k1, l1, a. auto.
    + intros q k1 Hq Hq' K1. rewrite (kind_put _ _ _ _ _ _ G) in K1. eapply X; eauto.
Qed.
Lemma turns_separate : forall KA KB h KA' KB' h', turns KA KB h KA' KB' h' -> separate KA KB h -> separate KA' KB' h'.
Proof.
  intros KA KB h KA' KB' h' T. induction T as [KA KB h|KA KB h KA1 h1 KA2 KB2 h2 H T IH|KA KB h KB1 h1 KA2 KB2 h2 H T IH]; intros Sp.
  - exact Sp.
  - apply IH. eapply step_separate; eauto.
  - apply IH. apply separate_sym. eapply step_separate; [apply separate_sym; exact Sp|exact H].
Qed.
Lemma frame_untouched : forall (Q : addr -> Prop) K h h', sealed Q h -> (forall r, In r K -> inside Q r) ->
  (forall q, Q q -> get h' q = get h q) -> untouched K h h'.
Proof.
  intros Q K h h' SQ HK HG. split.
  - intros q Hq. apply HG. exact (held_inside Q h K (RPtr q) SQ HK Hq).
  - intros r n Hr. symmetry.
    apply al_decode with (B := fun a b => a = b /\ inside Q a).
    + constructor.
      * intros a r' [E _]. congruence.
      * intros p r' [<- J]. simpl in J. destruct (get_some h p (proj1 SQ p J)) as (k & l & G).
        exists p, k, l, l. split; [reflexivity|]. split; [exact G|]. split; [rewrite HG by exact J; exact G|].
        assert (Z : forall a r1, In (a, r1) l -> inside Q r1).
        { intros a r1 H1. eapply (proj2 SQ); [exact J|]. exists k, l, a. auto. }
        clear G. induction l as [|[a r1] l IHl]; constructor; [split; [reflexivity|split; [reflexivity|]]|].
        -- eapply Z. left. reflexivity.
        -- apply IHl. intros; eapply Z; right; eauto.
      * intros p q p' q' [E _] [E' _] _ _. injection E as ->. injection E' as ->. reflexivity.
    + split; [reflexivity|]. exact (held_inside Q h K r SQ HK Hr).
Qed.
Lemma step_untouched : forall KA KB h KA' h', separate KA KB h -> step KA h KA' h' -> untouched KB h h'.
Proof.
  intros KA KB h KA' h' Sp H. destruct (step_separate _ _ _ _ _ Sp H) as [_ (B & SB & HB & G)].
  eapply frame_untouched; eauto.
Qed.

(** The copy is separate from everything there was. *)
Lemma copy_separate : forall h p h1 p1 K, well_formed h -> p < List.length h -> deepcopy h p = Ok (h1, p1) ->
  (forall q, In (RPtr q) K -> q < List.length h) -> separate K [RPtr p1] h1.
Proof.
  intros h p h1 p1 K WF L H HK. destruct (deepcopy_inv _ _ _ _ WF L H) as (m & I & J).
  assert (FL : forall q, frozen h (RPtr q) -> q < List.length h).
  { intros q F. inversion F as [|q' l G Z E]; subst. eapply get_lt; eauto. }
  pose proof (i_len _ _ _ _ I) as IL.
  assert (IN : forall r r', img h h1 m r r' -> inside (fun q => List.length h <= q < List.length h1 \/ frozen h (RPtr q)) r').
  { intros [a|x] [b|y] Jx; simpl in *; auto; try contradiction.
    destruct Jx as [[F E]|[[_ M]|[Ly (f & s & s' & _ & G & _)]]].
    - subst y. right. exact F.
    - left. apply (i_dom _ _ _ _ I) in M. lia.
    - left. apply get_lt in G. lia. }
  exists (fun q => q < List.length h), (fun q => List.length h <= q < List.length h1 \/ frozen h (RPtr q)).
  split; [|split; [|split; [|split]]].
  - split.
    + intros q Hq. lia.
    + intros q [a|r] Hq (k & l & a' & G & Ha); simpl; [exact Coq.Init.Logic.I|].
      rewrite (i_old _ _ _ _ I) in G by exact Hq. apply (wf_closed _ WF q r). exists k, l, a'. auto.
  - split.
    + intros q [Hq|F]; [lia|]. apply FL in F. lia.
    + intros q r [Hq|F] (k & l & a & G & Ha).
      * destruct (i_new _ _ _ _ I q Hq) as (x & (k1 & l0 & l1 & A1 & A2 & A3 & _) & _); [intros []|].
        rewrite G in A2. injection A2 as <- <-.
        assert (Y : exists r0, img h h1 m r0 r).
        { clear G A1. induction A3 as [|y y' l0 l [E Jy] A3 IH]; [contradiction|]. destruct Ha as [Ha|Ha]; [|auto].
          subst y'. simpl in *. eauto. }
        destruct Y as [r0 Jr]. eapply IN; eauto.
      * assert (Lq : q < List.length h) by (apply FL; exact F). rewrite (i_old _ _ _ _ I) in G by exact Lq.
        inversion F as [|q' l' G' Z E]; subst. rewrite G in G'. injection G' as -> <-.
        specialize (Z _ _ Ha). destruct r; simpl; auto.
  - intros [a|q] Hq; simpl; [exact Coq.Init.Logic.I|]. apply HK. exact Hq.
  - intros r [<-|[]]. eapply IN; eauto.
  - intros q k Hq [Hq'|F] K1; [lia|]. intros Mk. apply frozen_kind in F.
    unfold kind_of in K1, F. rewrite (i_old _ _ _ _ I) in K1 by exact Hq. rewrite F in K1. injection K1 as <-.
    destruct Mk as [E|[E|[E|[c E]]]]; discriminate.
Qed.

Lemma untouched_trans : forall K h1 h2 h3, untouched K h1 h2 -> untouched K h2 h3 ->
  (forall r, held h1 K r -> held h2 K r) -> untouched K h1 h3.
Proof.
  intros K h1 h2 h3 [A1 A2] [B1 B2] HH. split.
  - intros q Hq. rewrite B1 by (apply HH; exact Hq). apply A1. exact Hq.
  - intros r n Hr. rewrite B2 by (apply HH; exact Hr). apply A2. exact Hr.
Qed.
Lemma untouched_held : forall K h h', untouched K h h' -> forall r, held h K r -> held h' K r.
Proof.
  intros K h h' [U _] r [A|(k & Hk & Hr)]; [left; exact A|]. right. exists k. split; [exact Hk|].
  assert (G : forall a b, reach h a b -> (forall q, reach h a (RPtr q) -> get h' q = get h q) -> reach h' a b).
  { intros a b R. induction R as [a|p a b Ha R IH]; intros Y; [apply reach_refl|].
    eapply reach_step.
    - destruct Ha as (k0 & l & x & Ga & Hx). exists k0, l, x. split; [|exact Hx]. rewrite Y by apply reach_refl. exact Ga.
    - apply IH. intros q Hq. apply Y. eapply reach_step; eauto. }
  apply G; [exact Hr|]. intros q Hq. apply U. right. exists k. auto.
Qed.
Lemma run_untouched : forall KA KB h KA' h', run KA h KA' h' -> separate KA KB h -> untouched KB h h'.
Proof.
  intros KA KB h KA' h' R. induction R as [KA h|KA h K1 h1 K2 h2 H R IH]; intros Sp.
  - split; auto.
  - pose proof (step_untouched _ _ _ _ _ Sp H) as U1.
    eapply untouched_trans; [exact U1| |apply untouched_held; exact U1].
    apply IH. eapply step_separate; eauto.
Qed.

(** ** The statements *)
Lemma copy_succeeds : forall h p, well_formed h -> p < List.length h ->
  ((exists h' p', deepcopy h p = Ok (h', p')) <-> ~ exists q l, reach h (RPtr p) (RPtr q) /\ get h q = Some (MkObj OGen l)) /\
  ((exists q l, reach h (RPtr p) (RPtr q) /\ get h q = Some (MkObj OGen l)) -> deepcopy h p = Err ETypeError).
Proof.
  intros h p WF L. split; [split|].
  - intros (h' & p' & H) G. exact (deepcopy_no_gen _ _ _ _ WF L H G).
  - intros NG. destruct (deepcopy_cases _ _ WF L) as [H|[_ G]]; [exact H|contradiction].
  - intros G. destruct (deepcopy_cases _ _ WF L) as [(h' & p' & H)|[H _]]; [|exact H].
    exfalso. exact (deepcopy_no_gen _ _ _ _ WF L H G).
Qed.
Lemma copy_keeps : forall h p h' p', well_formed h -> p < List.length h -> deepcopy h p = Ok (h', p') ->
  forall q n, q < List.length h -> decode h' n (RPtr q) = decode h n (RPtr q).
Proof.
  intros h p h' p' WF L H q n Lq. destruct (deepcopy_inv _ _ _ _ WF L H) as (m & I & _).
  assert (U : untouched [RPtr q] h h').
  { apply frame_untouched with (Q := fun x => x < List.length h).
    - split; [auto|]. intros x [a|y] Hx Hr; simpl; [exact Coq.Init.Logic.I|]. eapply (wf_closed _ WF); eauto.
    - intros r [<-|[]]. exact Lq.
    - intros x Hx. apply (i_old _ _ _ _ I). exact Hx. }
  apply U. right. exists (RPtr q). split; [now left|apply reach_refl].
Qed.
Lemma copy_same : forall h p h' p', well_formed h -> p < List.length h -> deepcopy h p = Ok (h', p') ->
  alike h (RPtr p) h' (RPtr p') /\
  (forall n v, decode h n (RPtr p) = Ok v ->
     decode h' n (RPtr p') = Ok v /\ decode h' n (RPtr p) = Ok v) /\
  (forall E n v v', decode h n (RPtr p) = Ok v -> decode h' n (RPtr p') = Ok v' -> text E v' = text E v) /\
  (forall q, q < List.length h -> get h' q = get h q).
Proof.
  intros h p h' p' WF L H. pose proof (deepcopy_alike _ _ _ _ WF L H) as A. split; [exact A|]. split; [|split].
  - intros n v D. split.
    + rewrite <- (alike_decode _ _ _ _ n A). exact D.
    + rewrite (copy_keeps _ _ _ _ WF L H p n L). exact D.
  - intros E n v v' D D'. rewrite <- (alike_decode _ _ _ _ n A) in D'. congruence.
  - destruct (deepcopy_inv _ _ _ _ WF L H) as (m & I & _). intros q Lq. apply (i_old _ _ _ _ I). exact Lq.
Qed.
Lemma copy_independent : forall h p h1 p1 K KA KB h2,
  well_formed h -> p < List.length h -> deepcopy h p = Ok (h1, p1) ->
  (forall q, In (RPtr q) K -> q < List.length h) ->
  turns K [RPtr p1] h1 KA KB h2 ->
  (forall KA' h3, step KA h2 KA' h3 -> untouched KB h2 h3) /\
  (forall KB' h3, step KB h2 KB' h3 -> untouched KA h2 h3).
Proof.
  intros h p h1 p1 K KA KB h2 WF L H HK T.
  pose proof (turns_separate _ _ _ _ _ _ T (copy_separate _ _ _ _ _ WF L H HK)) as Sp. split.
  - intros. eapply step_untouched; eauto.
  - intros. eapply step_untouched; [apply separate_sym; exact Sp|eassumption].
Qed.
Lemma copy_histories : forall h p h1 p1 K K2 h2,
  well_formed h -> p < List.length h -> deepcopy h p = Ok (h1, p1) ->
  (forall q, In (RPtr q) K -> q < List.length h) ->
  (run K h1 K2 h2 -> forall n v, decode h n (RPtr p) = Ok v -> decode h2 n (RPtr p1) = Ok v) /\
  (run [RPtr p1] h1 K2 h2 -> forall q n v, q < List.length h -> decode h n (RPtr q) = Ok v -> decode h2 n (RPtr q) = Ok v).
Proof.
  intros h p h1 p1 K K2 h2 WF L H HK. split.
  - intros R n v D. pose proof (run_untouched _ _ _ _ _ R (copy_separate _ _ _ _ _ WF L H HK)) as [_ U].
    rewrite U by (right; exists (RPtr p1); split; [now left|apply reach_refl]).
    apply (copy_same _ _ _ _ WF L H). exact D.
  - intros R q n v Lq D.
    assert (HQ : forall x, In (RPtr x) [RPtr q] -> x < List.length h) by (intros x [E|[]]; injection E as <-; exact Lq).
    pose proof (run_untouched _ _ _ _ _ R (separate_sym _ _ _ (copy_separate _ _ _ _ _ WF L H HQ))) as [_ U].
    rewrite U by (right; exists (RPtr q); split; [now left|apply reach_refl]).
    rewrite (copy_keeps _ _ _ _ WF L H q n Lq). exact D.
Qed.
