(** Lemmas: the objects of a program and its queries at any time. *)
From Coq Require Import Lia.
From Verif Require Import Base NumFmt Value Backend Eq Render ParseArgs Build Queries Heap SpecHeap PfHeap PfHeapAlike PfHeapFrame PfHeapView HeapBuild SpecShare PfShare PfOwn PfParts PfNewItems PfMethods PfLayout PfOrders PfTables PfJoins PfCells PfConflict PfQueries PfCalls PfReading PfInside PfDictJoin PfNewQuery PfCopied.
Open Scope nat_scope.
Local Arguments view : simpl never.

Definition sess (own : owner) (h : heap) (H : list ref) (qs : list (addr * qkind)) : Prop :=
  inv own h /\ Forall (okr own h) H /\ forall q k, In (q, k) qs -> laid k q own h.
Lemma given_okr : forall own h H r, Forall (okr own h) H -> given H r -> okr own h r.
Proof. intros own h H r F [(a & ->)|I]; [exact Logic.I|]. rewrite Forall_forall in F. auto. Qed.
Lemma givens_okr : forall own h H rs, Forall (okr own h) H -> Forall (given H) rs -> Forall (okr own h) rs.
Proof. intros own h H rs F G. eapply Forall_impl; [|exact G]. intros r. apply given_okr. exact F. Qed.
Lemma laid_whole : forall k q own h p, inv own h -> laid k q own h -> whole own q p -> p < List.length h.
Proof.
  intros k q own h p J L [->|[s E]]; [|eapply in_own; eauto]. destruct (laid_kind _ _ _ _ L) as [K _]. unfold kind_of in K. destruct (get h q) eqn:G; [|discriminate]. eapply get_lt; eauto.
Qed.
(** A query is left alone by what does not touch it. *)
Lemma laid_after : forall (G C : addr -> Prop) k q own h own' h', inv own h -> after G C own h own' h' -> laid k q own h ->
  (forall p, whole own q p -> ~ G p /\ ~ C p) -> laid k q own' h'.
Proof.
  intros G C k q own h own' h' J (K & J' & F) L N. eapply laid_keeps; [exact K| |exact L]. intros p WP. destruct (N p WP) as [NG NC].
  destruct (F p) as [E|[E|E]]; [eapply laid_whole; eauto|exact E|contradiction|contradiction].
Qed.
(** Generators and dictionaries that belong to no query. *)
Definition outer (own : owner) (h : heap) (p : addr) : Prop := own p = None /\ (kind_of h p = Some OGen \/ kind_of h p = Some ODict).
Lemma whole_outer : forall k q own h p, laid k q own h -> whole own q p -> ~ outer own h p.
Proof. intros k q own h p L [->|[s E]] [O K]; [|congruence]. destruct (laid_kind _ _ _ _ L) as [KQ _]. rewrite KQ in K. destruct K; discriminate. Qed.
Lemma whole_other : forall k q k' q' own h p, laid k q own h -> laid k' q' own h -> q' <> q -> whole own q' p -> ~ whole own q p.
Proof.
  intros k q k' q' own h p L L' N W' W. destruct (laid_kind _ _ _ _ L) as [_ O]. destruct (laid_kind _ _ _ _ L') as [_ O']. destruct W' as [->|[s' E']]; destruct W as [->|[s E]]; congruence.
Qed.
Lemma laid_same : forall k k' q own h, laid k q own h -> laid k' q own h -> k' = k.
Proof. intros k k' q own h L L'. destruct (laid_kind _ _ _ _ L) as [K _]. destruct (laid_kind _ _ _ _ L') as [K' _]. rewrite K in K'. destruct k, k'; try reflexivity; discriminate. Qed.
Lemma one_entry_dict : forall h d, one_entry h (RPtr d) <> None -> kind_of h d = Some ODict.
Proof. intros h d N. unfold one_entry, dict_at in N. unfold kind_of. cbn in N. destruct (get h d) as [[[] l]|]; try (exfalso; apply N; reflexivity). reflexivity. Qed.
Lemma gin_outer : forall own h r, inv own h -> gin (outer own h) h r.
Proof.
  intros own h r J p R K. split; [|left; exact K]. destruct (own p) as [x|] eqn:E; [|reflexivity]. exfalso. apply (in_kind _ _ J _ _ E). rewrite K. reflexivity.
Qed.
Lemma eats_outer : forall own h c, Forall (okr own h) (call_refs c) -> eats (outer own h) h c.
Proof.
  intros own h c F a JG d -> N. split; [|right; apply one_entry_dict; exact N]. assert (I : In (RPtr d) (call_refs c)) by (destruct c as [[]|[]|[]|[]|]; cbn in *; try discriminate; injection JG as ->; left; reflexivity).
  rewrite Forall_forall in F. apply (F _ I).
Qed.
Lemma others_stay : forall (G : addr -> Prop) k q k' q' own h own' h', inv own h -> usable own h G -> after G (whole own q) own h own' h' -> laid k q own h -> laid k' q' own h ->
  q' <> q -> laid k' q' own' h'.
Proof.
  intros G k q k' q' own h own' h' J U A L L' N. eapply laid_after; [exact J|exact A|exact L'|]. intros p WP. split.
  - intros GP. eapply whole_outer; [exact L'|exact WP|exact (U _ GP)].
  - exact (whole_other _ _ _ _ _ _ _ L L' N WP).
Qed.
Lemma laid_okr : forall k q own h, laid k q own h -> okr own h (RPtr q).
Proof. intros k q own h L. destruct (laid_kind _ _ _ _ L) as [K O]. split; [|exact O]. unfold kind_of in K. destruct (get h q) eqn:G; [eapply get_lt; eauto|discriminate]. Qed.
Lemma reached_sess : forall h H qs, reached h H qs -> exists own, sess own h H qs.
Proof.
  intros h H qs R. induction R as [|h H qs k l R (own & J & F & Q) GL|h H qs p k l l' R (own & J & F & Q) IP NQ GP GL|h H qs t h' q R (own & J & F & Q) NW|h H qs q k h' q' more R (own & J & F & Q) IQ WF D MO|h H qs p h' p' more R (own & J & F & Q) IP WF D MO|h H qs W q c h' o R (own & J & F & Q) IQ GR CL].
  - exists (fun _ => None). split; [|split; [constructor|intros q k []]]. split.
    + intros p q (k & l & a & G & _). destruct p; discriminate.
    + discriminate.
    + discriminate.
    + discriminate.
  - exists own. assert (A : after nothing nothing own h own (h ++ [MkObj k l])) by (apply after_alloc; [exact J|]; intros a r I; eapply given_okr; eauto).
    split; [apply A|]. split.
    + constructor; [|eapply oks_keeps; [apply A|exact F]]. split; [rewrite app_length; cbn; lia|]. eapply fresh_own; eauto.
    + intros q k' I. eapply laid_after; [exact J|exact A|apply Q; exact I|]. intros p _. split; intros [].
  - exists own. assert (OP : okr own h (RPtr p)) by (rewrite Forall_forall in F; auto). destruct OP as [LP OP].
    assert (A : after nothing (fun x => x = p) own h own (put h p (MkObj k l'))) by (eapply after_write; [exact J|exact GP|right; reflexivity|]; intros a r I; left; eapply given_okr; eauto).
    split; [apply A|]. split; [eapply oks_keeps; [apply A|exact F]|]. intros q k' I. eapply laid_after; [exact J|exact A|apply Q; exact I|]. intros x WX. split; [intros []|].
    intros ->. destruct WX as [->|[s E]]; [exact (NQ _ I)|congruence].
  - destruct (new_said _ _ _ _ _ J NW) as (q' & own' & l & E & -> & LQ & A & S). injection E as <-. exists own'. split; [apply A|]. split.
    + constructor; [|eapply oks_keeps; [apply A|exact F]]. destruct (laid_kind _ _ _ _ (said_laid _ _ _ _ _ S)) as [K O]. split; [|exact O]. unfold kind_of in K.
      destruct (get (h ++ l) q) eqn:G; [|discriminate]. eapply get_lt; eauto.
    + intros q0 k0 [E|I]; [injection E as <- <-; exact (said_laid _ _ _ _ _ S)|]. eapply laid_after; [exact J|exact A|apply Q; exact I|]. intros p _. split; intros [].
  - pose proof (Q _ _ IQ) as L. destruct (copied own h q h' q' J WF) as (own' & A & O & LC); [|exact D|].
    { destruct (laid_kind _ _ _ _ L) as [K O]. split; [|exact O]. unfold kind_of in K. destruct (get h q) eqn:G; [eapply get_lt; eauto|discriminate]. }
    exists own'. split; [apply A|]. split; [constructor; [exact O|apply Forall_app; split; [|eapply oks_keeps; [apply A|exact F]]]; apply Forall_forall; intros r I; apply in_map_iff in I; destruct I as (x & <- & I); rewrite Forall_forall in MO; destruct (MO _ I) as (y & IY & T); exact (laid_okr _ _ _ _ (LC _ _ _ T (Q _ _ IY)))|]. intros q0 k0 [E|I]; [injection E as <- <-; exact (LC _ _ _ (tw_start _ _ _ _) L)|].
    apply in_app_or in I. destruct I as [I|I]; [rewrite Forall_forall in MO; destruct (MO _ I) as (y & IY & T); exact (LC _ _ _ T (Q _ _ IY))|].
    eapply laid_after; [exact J|exact A|apply Q; exact I|]. intros p _. split; intros [].
  - assert (OP : okr own h (RPtr p)) by (rewrite Forall_forall in F; auto). destruct (copied own h p h' p' J WF OP D) as (own' & A & O & LC).
    exists own'. split; [apply A|]. split; [constructor; [exact O|apply Forall_app; split; [|eapply oks_keeps; [apply A|exact F]]]; apply Forall_forall; intros r I; apply in_map_iff in I; destruct I as (x & <- & I); rewrite Forall_forall in MO; destruct (MO _ I) as (y & IY & T); exact (laid_okr _ _ _ _ (LC _ _ _ T (Q _ _ IY)))|]. intros q0 k0 I.
    apply in_app_or in I. destruct I as [I|I]; [rewrite Forall_forall in MO; destruct (MO _ I) as (y & IY & T); exact (LC _ _ _ T (Q _ _ IY))|].
    eapply laid_after; [exact J|exact A|apply Q; exact I|]. intros x _. split; intros [].
  - pose proof (Q _ _ IQ) as L. assert (OR : Forall (okr own h) (call_refs c)) by (eapply givens_okr; eauto).
    destruct (call_laid W (outer own h) q own h c h' o J) as (own' & A & L'); [intros y Y; exact Y|exact L|exact OR| |apply eats_outer; exact OR|exact CL|].
    { apply Forall_forall. intros r _. apply gin_outer. exact J. }
    exists own'. split; [apply A|]. split; [eapply oks_keeps; [apply A|exact F]|]. intros q0 k0 I. destruct (Nat.eq_dec q0 q) as [->|N].
    + rewrite (laid_same _ _ _ _ _ L (Q _ _ I)). exact L'.
    + eapply (others_stay (outer own h)); [exact J|intros y Y; exact Y|exact A|exact L|exact (Q _ _ I)|exact N].
Qed.
