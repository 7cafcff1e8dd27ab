(** Lemmas: the objects a query has for itself. *)
From Coq Require Import Lia.
From Verif Require Import Base NumFmt Value Backend Eq Render ParseArgs Build Heap SpecHeap PfHeap PfHeapAlike PfHeapFrame PfHeapView HeapBuild SpecShare PfShare.
Open Scope nat_scope.

(** The place of an object in a query: part [k], and where in the part. *)
Inductive place :=
| PDict | PPart | PList | PItem (i : nat) | PJoins (i : nat) | PJoin (i j : nat) | PJTab (i j : nat) | PJJoins (i j : nat)
| POns (i j : nat) | POnList (i j : nat).
Definition slot : Type := string * place.
Definition owner := addr -> option (addr * slot).
Definition upd (own : owner) (p : addr) (x : addr * slot) : owner := fun a => if Nat.eqb a p then Some x else own a.
Lemma upd_same : forall own p x, upd own p x p = Some x.
Proof. intros. unfold upd. rewrite Nat.eqb_refl. reflexivity. Qed.
Lemma upd_other : forall own p x a, a <> p -> upd own p x a = own a.
Proof. intros own p x a H. unfold upd. destruct (Nat.eqb_spec a p); [contradiction|reflexivity]. Qed.

(** The objects of a query are lists, dictionaries and instances. *)
Definition openk (k : kind) : bool := match k with OList | ODict | OInst _ => true | _ => false end.
(** No dangling references; the objects of a query are referred to by the query only. *)
Record inv (own : owner) (h : heap) : Prop := {
  in_closed : closed h;
  in_own : forall p q s, own p = Some (q, s) -> p < List.length h /\ own q = None /\ exists c, kind_of h q = Some (OInst c);
  in_priv : forall a b q s, refers h a (RPtr b) -> own b = Some (q, s) -> a = q \/ exists s', own a = Some (q, s');
  in_kind : forall p x, own p = Some x -> option_map openk (kind_of h p) <> Some false }.
(** A reference a program can have. *)
Definition okr (own : owner) (h : heap) (r : ref) : Prop :=
  match r with RAtom _ => True | RPtr p => p < List.length h /\ own p = None end.
Definition mine (own : owner) (h : heap) (q : addr) (r : ref) : Prop :=
  match r with RAtom _ => True | RPtr p => p < List.length h /\ match own p with None => True | Some (q', _) => q' = q end end.
Lemma okr_mine : forall own h q r, okr own h r -> mine own h q r.
Proof. intros own h q [a|p]; cbn; [auto|]. intros [A ->]. auto. Qed.
Lemma okr_valid : forall own h r, okr own h r -> valid h r.
Proof. intros own h [a|p]; cbn; [auto|]. tauto. Qed.

Lemma refers_put : forall h p k l x r, refers (put h p (MkObj k l)) x r -> (x = p /\ exists a, In (a, r) l) \/ (x <> p /\ refers h x r).
Proof.
  intros h p k l x r (k' & l' & a & G & I). destruct (Nat.eq_dec x p) as [->|N].
  - destruct (Nat.lt_ge_cases p (List.length h)) as [L|L].
    + rewrite get_put_same in G by exact L. injection G as <- <-. left. eauto.
    + exfalso. apply get_lt in G. rewrite put_length in G. lia.
  - right. split; [exact N|]. rewrite get_put_other in G by exact N. exists k', l', a. auto.
Qed.
Lemma refers_app : forall h k l x r, refers (h ++ [MkObj k l]) x r -> (x = List.length h /\ exists a, In (a, r) l) \/ refers h x r.
Proof.
  intros h k l x r (k' & l' & a & G & I). destruct (Nat.lt_ge_cases x (List.length h)) as [L|L].
  - right. rewrite get_old in G by exact L. exists k', l', a. auto.
  - left. assert (x = List.length h). { apply get_lt in G. rewrite app_len in G. lia. }
    subst x. rewrite get_new in G. injection G as <- <-. eauto.
Qed.
Lemma kind_app : forall h o p k, kind_of h p = Some k -> kind_of (h ++ [o]) p = Some k.
Proof.
  intros h o p k H. unfold kind_of in *. destruct (get h p) eqn:G; [|discriminate]. rewrite get_old by (eapply get_lt; eauto). rewrite G. exact H.
Qed.
Lemma refers_lt : forall h p r, refers h p r -> p < List.length h.
Proof. intros h p r (k & l & a & G & _). eapply get_lt; eauto. Qed.

Lemma inv_alloc : forall own h k l, inv own h -> (forall a r, In (a, r) l -> okr own h r) -> inv own (h ++ [MkObj k l]).
Proof.
  intros own h k l [C O P N] R. split.
  - intros p b H. rewrite app_len. destruct (refers_app _ _ _ _ _ H) as [(-> & a & I)|H'].
    + specialize (R _ _ I). cbn in R. lia.
    + specialize (C _ _ H'). lia.
  - intros p q s H. destruct (O _ _ _ H) as (A & B & c & D). rewrite app_len. repeat split; [lia|exact B|]. exists c. apply kind_app. exact D.
  - intros x b q s H E. destruct (refers_app _ _ _ _ _ H) as [(-> & a & I)|H'].
    + specialize (R _ _ I). cbn in R. destruct R. congruence.
    + eapply P; eauto.
  - intros p [q s] E. pose proof (N _ _ E) as X. destruct (O _ _ _ E) as (L & _). unfold kind_of in *. rewrite get_old by exact L. exact X.
Qed.
Lemma fresh_own : forall own h p, inv own h -> List.length h <= p -> own p = None.
Proof. intros own h p [_ O _ _] L. destruct (own p) as [[q s]|] eqn:E; [|reflexivity]. destruct (O _ _ _ E). lia. Qed.
Lemma inv_alloc_in : forall own h q c s k l, inv own h -> own q = None -> kind_of h q = Some (OInst c) -> openk k <> false ->
  (forall a r, In (a, r) l -> mine own h q r) -> inv (upd own (List.length h) (q, s)) (h ++ [MkObj k l]).
Proof.
  intros own h q c s k l J Q KQ NK R. pose proof (fun p => fresh_own own h p J) as FR. destruct J as [C O P NN].
  assert (QL : q < List.length h). { unfold kind_of in KQ. destruct (get h q) eqn:G; [|discriminate]. eapply get_lt; eauto. }
  split.
  - intros p b H. rewrite app_len. destruct (refers_app _ _ _ _ _ H) as [(-> & a & I)|H'].
    + specialize (R _ _ I). cbn in R. lia.
    + specialize (C _ _ H'). lia.
  - intros p q' s' H. rewrite app_len. unfold upd in H. destruct (Nat.eqb_spec p (List.length h)) as [->|N].
    + injection H as <- <-. split; [lia|]. rewrite upd_other by lia. split; [exact Q|]. exists c. apply kind_app. exact KQ.
    + destruct (O _ _ _ H) as (A & B & c' & D). split; [lia|].
      assert (q' < List.length h). { unfold kind_of in D. destruct (get h q') eqn:G; [|discriminate]. eapply get_lt; eauto. }
      rewrite upd_other by lia. split; [exact B|]. exists c'. apply kind_app. exact D.
  - intros x b q' s' H E. unfold upd in E. destruct (Nat.eqb_spec b (List.length h)) as [->|N].
    + exfalso. destruct (refers_app _ _ _ _ _ H) as [(-> & a & I)|H'].
      * specialize (R _ _ I). cbn in R. lia.
      * specialize (C _ _ H'). lia.
    + destruct (refers_app _ _ _ _ _ H) as [(-> & a & I)|H'].
      * specialize (R _ _ I). cbn in R. rewrite E in R. destruct R as [_ <-]. right. exists s. apply upd_same.
      * destruct (P _ _ _ _ H' E) as [->|[s2 E2]]; [left; reflexivity|right]. exists s2. rewrite upd_other; [exact E2|].
        apply refers_lt in H'. lia.
  - intros p x E. unfold upd in E. destruct (Nat.eqb_spec p (List.length h)) as [->|NE].
    + unfold kind_of. rewrite get_new. cbn. congruence.
    + destruct x as [q' s']. pose proof (NN _ _ E) as X. destruct (O _ _ _ E) as (L & _). unfold kind_of in *. rewrite get_old by exact L. exact X.
Qed.
Lemma kind_put : forall h p k l l' x, get h p = Some (MkObj k l) -> kind_of (put h p (MkObj k l')) x = kind_of h x.
Proof.
  intros h p k l l' x G. unfold kind_of. destruct (Nat.eq_dec x p) as [->|N].
  - rewrite get_put_same by (eapply get_lt; eauto). rewrite G. reflexivity.
  - rewrite get_put_other by exact N. reflexivity.
Qed.
Lemma inv_write : forall own h p k l l', inv own h -> get h p = Some (MkObj k l) ->
  (forall a r, In (a, r) l' -> okr own h r \/ exists q, mine own h q r /\ (p = q \/ exists s, own p = Some (q, s))) ->
  inv own (put h p (MkObj k l')).
Proof.
  intros own h p k l l' [C O P N] G R. split.
  - intros x b H. rewrite put_length. destruct (refers_put _ _ _ _ _ _ H) as [(-> & a & I)|(_ & H')].
    + destruct (R _ _ I) as [X|(q & X & _)]; cbn in X; lia.
    + eapply C; eauto.
  - intros x q s H. destruct (O _ _ _ H) as (A & B & c & D). rewrite put_length. repeat split; auto. exists c.
    erewrite kind_put by exact G. exact D.
  - intros x b q s H E. destruct (refers_put _ _ _ _ _ _ H) as [(-> & a & I)|(_ & H')].
    + destruct (R _ _ I) as [X|(q' & X & Y)]; cbn in X; [destruct X; congruence|]. rewrite E in X. destruct X as [_ <-]. exact Y.
    + eapply P; eauto.
  - intros x y E. erewrite kind_put by exact G. eapply N; eauto.
Qed.
(** The program's references lead to a query's objects through the query only. *)
Lemma private : forall own h r p q s, inv own h -> okr own h r -> reach h r (RPtr p) -> own p = Some (q, s) -> reach h r (RPtr q).
Proof.
  intros own h r p q s J OK H E. destruct J as [C O P _].
  assert (X : forall r x, reach h r x -> forall p, x = RPtr p -> own p = Some (q, s) \/ (exists s', own p = Some (q, s')) ->
              (exists b s', r = RPtr b /\ own b = Some (q, s')) \/ reach h r (RPtr q)).
  { clear - P. intros r x H. induction H as [r|a r x Hr H IH]; intros p -> E.
    - left. destruct E as [E|[s' E]]; eauto.
    - destruct (IH _ eq_refl E) as [(b & s' & -> & Eb)|R].
      + destruct (P _ _ _ _ Hr Eb) as [->|[s2 E2]]; [right; apply reach_refl|left; eauto].
      + right. eapply reach_step; eauto. }
  destruct (X _ _ H _ eq_refl (or_introl E)) as [(b & s' & -> & Eb)|R]; [|exact R].
  cbn in OK. destruct OK. congruence.
Qed.

(** ** What a call may change *)
Definition keeps (own : owner) (h : heap) (own' : owner) (h' : heap) : Prop :=
  List.length h <= List.length h' /\ (forall p, p < List.length h -> own' p = own p) /\
  (forall p k, kind_of h p = Some k -> kind_of h' p = Some k).
Definition after (G : addr -> Prop) (C : addr -> Prop) (own : owner) (h : heap) (own' : owner) (h' : heap) : Prop :=
  keeps own h own' h' /\ inv own' h' /\
  (forall p, p < List.length h -> get h' p = get h p \/ G p \/ C p).
Lemma keeps_trans : forall o1 h1 o2 h2 o3 h3, keeps o1 h1 o2 h2 -> keeps o2 h2 o3 h3 -> keeps o1 h1 o3 h3.
Proof.
  intros o1 h1 o2 h2 o3 h3 (A & B & C) (A' & B' & C'). repeat split; [lia| |auto].
  intros p L. rewrite B' by lia. apply B. exact L.
Qed.
Lemma after_trans : forall G C o1 h1 o2 h2 o3 h3, after G C o1 h1 o2 h2 -> after G C o2 h2 o3 h3 -> after G C o1 h1 o3 h3.
Proof.
  intros G C o1 h1 o2 h2 o3 h3 (K & I & F) (K' & I' & F'). split; [eapply keeps_trans; eauto|]. split; [exact I'|].
  intros p L. destruct (F p L) as [E|X]; [|right; exact X]. destruct K as (LL & _). destruct (F' p ltac:(lia)) as [E'|X']; [left; congruence|right; exact X'].
Qed.
Lemma after_refl : forall G C own h, inv own h -> after G C own h own h.
Proof. intros G C own h J. split; [|split]; [repeat split; auto|exact J|auto]. Qed.
Lemma after_more : forall (G G' C C' : addr -> Prop) own h own' h', (forall p, G p -> G' p) -> (forall p, C p -> C' p) ->
  after G C own h own' h' -> after G' C' own h own' h'.
Proof. intros G G' C C' own h own' h' HG HC (K & I & F). split; [exact K|split; [exact I|]]. intros p L. destruct (F p L) as [|[|]]; auto. Qed.
Lemma okr_keeps : forall own h own' h' r, keeps own h own' h' -> okr own h r -> okr own' h' r.
Proof. intros own h own' h' [a|p] (L & O & _); cbn; [auto|]. intros [A B]. split; [lia|]. rewrite O; auto. Qed.
Lemma oks_keeps : forall own h own' h' l, keeps own h own' h' -> Forall (okr own h) l -> Forall (okr own' h') l.
Proof. intros own h own' h' l K H. eapply Forall_impl; [|exact H]. intros; eapply okr_keeps; eauto. Qed.
Lemma after_alloc : forall G C own h k l, inv own h -> (forall a r, In (a, r) l -> okr own h r) ->
  after G C own h own (h ++ [MkObj k l]) /\ okr own (h ++ [MkObj k l]) (RPtr (List.length h)).
Proof.
  intros G C own h k l J R. split.
  - split; [|split].
    + repeat split; [rewrite app_len; lia|]. intros p k' H. apply kind_app. exact H.
    + apply inv_alloc; assumption.
    + intros p L. left. apply get_old. exact L.
  - cbn. rewrite app_len. split; [lia|]. eapply fresh_own; eauto.
Qed.
Lemma after_alloc_in : forall G C own h q c s k l, inv own h -> own q = None -> kind_of h q = Some (OInst c) -> openk k <> false ->
  (forall a r, In (a, r) l -> mine own h q r) -> after G C own h (upd own (List.length h) (q, s)) (h ++ [MkObj k l]).
Proof.
  intros G C own h q c s k l J Q KQ NK R. split; [|split].
  - repeat split; [rewrite app_len; lia| |].
    + intros p L. apply upd_other. lia.
    + intros p k' H. apply kind_app. exact H.
  - eapply inv_alloc_in; eauto.
  - intros p L. left. apply get_old. exact L.
Qed.
Lemma after_write : forall (G C : addr -> Prop) own h p k l l', inv own h -> get h p = Some (MkObj k l) -> G p \/ C p ->
  (forall a r, In (a, r) l' -> okr own h r \/ exists q, mine own h q r /\ (p = q \/ exists s, own p = Some (q, s))) ->
  after G C own h own (put h p (MkObj k l')).
Proof.
  intros G C own h p k l l' J GP X R. split; [|split].
  - repeat split; [rewrite put_length; lia|]. intros x k' H. erewrite kind_put; eauto.
  - eapply inv_write; eauto.
  - intros x L. destruct (Nat.eq_dec x p) as [->|N]; [right; exact X|left]. apply get_put_other. exact N.
Qed.

(** ** What is reached *)
Definition avoids (h : heap) (l : addr) (r : ref) : Prop := ~ reach h r (RPtr l).
Lemma reach_frame : forall h h' r s, (forall p, reach h r (RPtr p) -> get h' p = get h p) -> reach h' r s -> reach h r s.
Proof.
  intros h h' r s F H. revert F. induction H as [r|p r s Hr H IH]; intros F; [apply reach_refl|].
  assert (R : refers h p r). { destruct Hr as (k & l & a & G & I). rewrite F in G by apply reach_refl. exists k, l, a. auto. }
  eapply reach_step; [exact R|]. apply IH. intros x X. apply F. eapply reach_step; eauto.
Qed.
(** References into the old heap that avoid what changed. *)
Definition calm (G C : addr -> Prop) (h : heap) (r : ref) : Prop := forall p, reach h r (RPtr p) -> ~ G p /\ ~ C p.
Lemma calm_frame : forall G C own h own' h' r, after G C own h own' h' -> closed h -> valid h r -> calm G C h r ->
  forall p, reach h r (RPtr p) -> get h' p = get h p.
Proof.
  intros G C own h own' h' r (K & J & F) CL V A p R. destruct (A p R) as [NG NC].
  pose proof (reach_valid _ _ _ CL R V) as L. cbn in L. destruct (F p L) as [E|[E|E]]; [exact E|contradiction|contradiction].
Qed.
Lemma calm_stands : forall G C own h own' h' r v, after G C own h own' h' -> closed h -> calm G C h r ->
  stands h r v -> stands h' r v.
Proof.
  intros G C own h own' h' r v A CL CA S. eapply stands_frame; [exact CL|eapply stands_valid; exact S| |exact S].
  eapply calm_frame; eauto. eapply stands_valid; exact S.
Qed.
Lemma calm_reach : forall G C own h own' h' r x, after G C own h own' h' -> closed h -> valid h r -> calm G C h r ->
  reach h' r x -> reach h r x.
Proof. intros G C own h own' h' r x A CL V CA H. eapply reach_frame; [|exact H]. eapply calm_frame; eauto. Qed.
Lemma calm_after : forall G C own h own' h' r, after G C own h own' h' -> closed h -> valid h r -> calm G C h r -> calm G C h' r.
Proof. intros G C own h own' h' r A CL V CA p R. apply CA. eapply calm_reach; eauto. Qed.
Lemma reach_atom : forall h a x, reach h (RAtom a) x -> x = RAtom a.
Proof. intros h a x H. inversion H. reflexivity. Qed.
Lemma calm_atom : forall G C h a, calm G C h (RAtom a).
Proof. intros G C h a p R. apply reach_atom in R. discriminate. Qed.
(** A new object reaches what its parts reach. *)
Lemma calm_new : forall (G C : addr -> Prop) h k l, closed h -> (forall a r, In (a, r) l -> valid h r /\ calm G C h r) ->
  ~ G (List.length h) -> ~ C (List.length h) -> calm G C (h ++ [MkObj k l]) (RPtr (List.length h)).
Proof.
  intros G C h k l CL R NG NC p H. inversion H as [x E1 E2|x r s Hr H' E1 E2]; subst; [auto|].
  destruct (refers_app _ _ _ _ _ Hr) as [(_ & a & I)|X].
  - destruct (R _ _ I) as [V CA]. apply CA. eapply reach_frame; [|exact H'].
    intros y Y. apply get_old. exact (reach_valid _ _ _ CL Y V).
  - apply refers_lt in X. lia.
Qed.
