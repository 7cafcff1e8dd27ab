(** Lemmas about copy(): the copy has the shape of the original. *)
From Coq Require Import Lia.
From Verif Require Import Base NumFmt Value Heap SpecHeap.
Open Scope nat_scope.

(** ** Heaps *)
Lemma get_lt : forall h p o, get h p = Some o -> p < List.length h.
Proof. intros h p o H. apply nth_error_Some. unfold get in H. rewrite H. discriminate. Qed.
Lemma get_old : forall h h' p, p < List.length h -> get (h ++ h') p = get h p.
Proof. intros. apply nth_error_app1. assumption. Qed.
Lemma get_new : forall h o, get (h ++ [o]) (List.length h) = Some o.
Proof. intros. unfold get. rewrite nth_error_app2 by lia. rewrite Nat.sub_diag. reflexivity. Qed.
Lemma get_put_same : forall h p o, p < List.length h -> get (put h p o) p = Some o.
Proof. induction h as [|x h IH]; intros [|p] o H; simpl in *; try lia; [reflexivity|]. apply IH. lia. Qed.
Lemma get_put_other : forall h p q o, q <> p -> get (put h p o) q = get h q.
Proof. induction h as [|x h IH]; intros [|p] [|q] o H; simpl in *; try reflexivity; try lia. apply IH. lia. Qed.
Lemma put_length : forall h p o, List.length (put h p o) = List.length h.
Proof. induction h as [|x h IH]; intros [|p] o; simpl; auto. Qed.
Lemma app_len : forall (h : heap) o, List.length (h ++ [o]) = S (List.length h).
Proof. intros. rewrite app_length. simpl. lia. Qed.
Lemma get_some : forall h p, p < List.length h -> exists k l, get h p = Some (MkObj k l).
Proof.
  intros h p L. destruct (get h p) as [[k l]|] eqn:G; [eauto|]. exfalso. apply nth_error_None in G. lia.
Qed.
Lemma reach_trans : forall h a b c, reach h a b -> reach h b c -> reach h a c.
Proof. intros h a b c H. induction H; intros; [assumption|]. eapply reach_step; eauto. Qed.

(** A tuple with nothing inside that can change: copied to itself. *)
Inductive frozen (h : heap) : ref -> Prop :=
| fr_atom : forall a, frozen h (RAtom a)
| fr_tuple : forall p l, get h p = Some (MkObj OTuple l) -> (forall a r, In (a, r) l -> frozen h r) ->
    frozen h (RPtr p).

Section Copy.
Variable h0 : heap.
Hypothesis WF : well_formed h0.
Let N0 := List.length h0.

Definition valid (r : ref) : Prop := match r with RAtom _ => True | RPtr p => p < N0 end.
(** [r'] is the copy of [r]. *)
Definition img (h : heap) (m : memo) (r r' : ref) : Prop :=
  match r, r' with
  | RAtom a, RAtom b => a = b
  | RPtr p, RPtr q =>
      (frozen h0 (RPtr p) /\ p = q) \/
      (kind_of h0 p <> Some OMethod /\ m p = Some q) \/
      (N0 <= q /\ exists f s s', get h0 p = Some (MkObj OMethod [(LFunc, RAtom (AFun f)); (LSelf, RPtr s)]) /\
         get h q = Some (MkObj OMethod [(LFunc, RAtom (AFun f)); (LSelf, RPtr s')]) /\ m s = Some s')
  | _, _ => False
  end.
Definition eimg h m (x x' : label * ref) : Prop := fst x = fst x' /\ img h m (snd x) (snd x').
Definition copy_of h m (p q : addr) : Prop := exists k l l',
  get h0 p = Some (MkObj k l) /\ get h q = Some (MkObj k l') /\ Forall2 (eimg h m) l l' /\ k <> OGen.
Definition open_kind (k : kind) : Prop := k = OList \/ k = ODict \/ exists c, k = OInst c.

Record Inv (O : list addr) (h : heap) (m : memo) : Prop := {
  i_len : N0 <= List.length h;
  i_old : forall p, p < N0 -> get h p = get h0 p;
  i_dom : forall p q, m p = Some q -> p < N0 /\ N0 <= q < List.length h;
  i_inj : forall p p' q, m p = Some q -> m p' = Some q -> p = p';
  i_nfr : forall p q, m p = Some q -> ~ frozen h0 (RPtr p);
  i_open : forall q, In q O -> exists k, open_kind k /\ get h q = Some (MkObj k []);
  i_opk : forall p q, m p = Some q -> In q O -> exists k l, open_kind k /\ get h0 p = Some (MkObj k l);
  i_new : forall q, N0 <= q < List.length h -> ~ In q O -> exists p, copy_of h m p q /\ (kind_of h0 p <> Some OMethod -> m p = Some q);
  i_cop : forall p q, m p = Some q -> ~ In q O -> copy_of h m p q }.

Record ext (h : heap) (m : memo) (h' : heap) (m' : memo) : Prop := {
  e_len : List.length h <= List.length h';
  e_get : forall q, q < List.length h -> get h' q = get h q;
  e_mem : forall p q, kind_of h0 p <> Some OMethod -> m p = Some q -> m' p = Some q;
  e_dom : forall p, m p <> None -> m' p <> None }.
Lemma ext_refl : forall h m, ext h m h m.
Proof. intros. constructor; auto. Qed.
Lemma ext_trans : forall h1 m1 h2 m2 h3 m3, ext h1 m1 h2 m2 -> ext h2 m2 h3 m3 -> ext h1 m1 h3 m3.
Proof.
  intros h1 m1 h2 m2 h3 m3 [L1 G1 M1 D1] [L2 G2 M2 D2]. constructor.
  - lia.
  - intros q Hq. rewrite G2 by lia. apply G1. exact Hq.
  - eauto.
  - eauto.
Qed.

Lemma not_method_inst : forall s c, kind_of h0 s = Some (OInst c) -> kind_of h0 s <> Some OMethod.
Proof. intros s c H. rewrite H. discriminate. Qed.
Lemma method_self : forall p f s, get h0 p = Some (MkObj OMethod [(LFunc, RAtom (AFun f)); (LSelf, RPtr s)]) ->
  kind_of h0 s <> Some OMethod.
Proof.
  intros p f s H. destruct (wf_method _ WF _ _ H) as (f' & s' & c & E & K). injection E as -> ->.
  eapply not_method_inst; eauto.
Qed.
(** Images stay images, as long as no bound method is overwritten. *)
Lemma img_mono : forall h m h' m' r r',
  (forall q f s, get h q = Some (MkObj OMethod [f; s]) -> get h' q = get h q) ->
  (forall p q, kind_of h0 p <> Some OMethod -> m p = Some q -> m' p = Some q) ->
  img h m r r' -> img h' m' r r'.
Proof.
  intros h m h' m' [a|p] [b|q] G M; simpl; auto.
  intros [[F ->]|[[K E]|[L (f & s & s' & E1 & E2 & E3)]]].
  - left. auto.
  - right. left. auto.
  - right. right. split; [exact L|]. exists f, s, s'. split; [exact E1|]. split.
    + rewrite (G _ _ _ E2). exact E2.
    + apply M; [|exact E3]. eapply method_self; eauto.
Qed.
Lemma img_ext : forall h m h' m' r r', ext h m h' m' -> img h m r r' -> img h' m' r r'.
Proof.
  intros h m h' m' r r' [L G M D]. apply img_mono; [|exact M].
  intros q f s H. apply G. eapply get_lt; eauto.
Qed.
Lemma eimgs_ext : forall h m h' m' l l', ext h m h' m' -> Forall2 (eimg h m) l l' -> Forall2 (eimg h' m') l l'.
Proof.
  intros h m h' m' l l' X F. induction F as [|x x' l l' [E I] F IH]; constructor; auto.
  split; [exact E|]. eapply img_ext; eauto.
Qed.

Lemma frozen_kind : forall p, frozen h0 (RPtr p) -> kind_of h0 p = Some OTuple.
Proof. intros p F. inversion F as [|p' l G _ E]; subst. unfold kind_of. rewrite G. reflexivity. Qed.

(** ** What a call to deepcopy does *)
Definition good (O : list addr) h m (r : ref) h' m' (r' : ref) : Prop :=
  Inv O h' m' /\ ext h m h' m' /\ img h' m' r r' /\
  (forall p, m' p = m p \/ reach h0 r (RPtr p)).
Definition dc_good (dc : heap -> memo -> ref -> res (heap * memo * ref)) : Prop :=
  forall O h m r h' m' r', Inv O h m -> valid r -> dc h m r = Ok (h', m', r') -> good O h m r h' m' r'.

Lemma parts_good : forall dc, dc_good dc -> forall l O h m h' m' l',
  Inv O h m -> (forall a r, In (a, r) l -> valid r) ->
  copy_parts dc h m l = Ok (h', m', l') ->
  Inv O h' m' /\ ext h m h' m' /\ Forall2 (eimg h' m') l l' /\
  (forall p, m' p = m p \/ exists a r, In (a, r) l /\ reach h0 r (RPtr p)).
Proof.
  intros dc DC. induction l as [|[a r] l IH]; intros O h m h' m' l' I V H; simpl in H.
  - injection H as <- <- <-. split; [exact I|]. split; [apply ext_refl|]. split; [constructor|]. auto.
  - destruct (dc h m r) as [[[h1 m1] r1]|] eqn:E1; [|discriminate]. cbn [bind] in H.
    destruct (copy_parts dc h1 m1 l) as [[[h2 m2] l2]|] eqn:E2; [|discriminate]. cbn [bind] in H.
    injection H as <- <- <-.
    destruct (DC O _ _ _ _ _ _ I (V a r (or_introl eq_refl)) E1) as (I1 & X1 & J1 & R1).
    destruct (IH O _ _ _ _ _ I1 (fun b s Hb => V b s (or_intror Hb)) E2) as (I2 & X2 & J2 & R2).
    split; [exact I2|]. split; [eapply ext_trans; eauto|]. split.
    + constructor; [|exact J2]. split; [reflexivity|]. eapply img_ext; eauto.
    + intros p. destruct (R2 p) as [E|(b & s & Hb & Hr)].
      * destruct (R1 p) as [E'|Hr]; [left; congruence|]. right. exists a, r. split; [now left|exact Hr].
      * right. exists b, s. split; [now right|exact Hr].
Qed.

Lemma same_refs_frozen : forall h m O l l', Inv O h m -> (forall a r, In (a, r) l -> valid r) ->
  Forall2 (eimg h m) l l' -> same_refs l l' = true -> forall a r, In (a, r) l -> frozen h0 r.
Proof.
  intros h m O l l' I V F. induction F as [|[a r] [a' r'] l l' [E J] F IH]; [intros _ ? ? []|].
  unfold same_refs. simpl. intros H. apply andb_true_iff in H. destruct H as [H1 H2].
  intros b s [Hb|Hb].
  - injection Hb as <- <-. simpl in J. destruct r as [c|p], r' as [c'|q]; simpl in *; try discriminate; try contradiction.
    + constructor.
    + apply Nat.eqb_eq in H1. subst q.
      destruct J as [[Fz _]|[[K M]|[L _]]]; [exact Fz| |].
      * apply (i_dom _ _ _ I) in M. lia.
      * specialize (V a (RPtr p) (or_introl eq_refl)). simpl in V. lia.
  - eapply IH; eauto. intros; eapply V; right; eauto.
Qed.
Lemma frozen_same_refs : forall h m O l l', Inv O h m -> (forall a r, In (a, r) l -> frozen h0 r) ->
  Forall2 (eimg h m) l l' -> same_refs l l' = true.
Proof.
  intros h m O l l' I Z F. induction F as [|[a r] [a' r'] l l' [E J] F IH]; [reflexivity|].
  unfold same_refs. simpl. apply andb_true_iff. split; [|apply IH; intros; eapply Z; right; eauto].
  assert (Zr : frozen h0 r) by (eapply Z; left; reflexivity).
  simpl in J. destruct r as [c|p], r' as [c'|q]; simpl in *; try contradiction; [reflexivity|].
  apply Nat.eqb_eq. destruct J as [[Fz E']|[[K M]|[L (f & s & s' & E1 & _)]]]; [exact E'| |].
  - exfalso. eapply i_nfr; eauto.
  - exfalso. apply frozen_kind in Zr. unfold kind_of in Zr. rewrite E1 in Zr. discriminate.
Qed.

Lemma inv_not_open : forall O h m q, Inv O h m -> In q O -> q < List.length h.
Proof. intros O h m q I H. destruct (i_open _ _ _ I q H) as (k & _ & G). eapply get_lt; eauto. Qed.

(** Adding a finished copy at the end of the heap. *)
Lemma alloc_good : forall O h m p k l l',
  Inv O h m -> get h0 p = Some (MkObj k l) -> k <> OGen -> Forall2 (eimg h m) l l' ->
  ~ frozen h0 (RPtr p) -> (k <> OMethod -> m p = None) ->
  Inv O (h ++ [MkObj k l']) (remember m p (List.length h)) /\
  ext h m (h ++ [MkObj k l']) (remember m p (List.length h)).
Proof.
  intros O h m p k l l' I G NG F NF MN.
  set (h' := h ++ [MkObj k l']). set (m' := remember m p (List.length h)).
  assert (X : ext h m h' m').
  { constructor.
    - unfold h'. rewrite app_len. lia.
    - intros q Hq. apply get_old. exact Hq.
    - intros x q K E. unfold m', remember. destruct (Nat.eqb_spec x p) as [->|Nx]; [|exact E].
      rewrite MN in E; [discriminate|]. intros ->. apply K. unfold kind_of. rewrite G. reflexivity.
    - intros x E. unfold m', remember. destruct (x =? p); [discriminate|exact E]. }
  assert (Lh : List.length h' = S (List.length h)) by apply app_len.
  assert (Old : forall q, In q O -> q <> List.length h).
  { intros q Hq. pose proof (inv_not_open _ _ _ _ I Hq). lia. }
  assert (C : copy_of h' m' p (List.length h)).
  { exists k, l, l'. split; [exact G|]. split; [apply get_new|]. split; [|exact NG]. eapply eimgs_ext; eauto. }
  assert (Keep : forall x q, q < List.length h -> copy_of h m x q -> copy_of h' m' x q).
  { intros x q Hq (k1 & l1 & l1' & A1 & A2 & A3 & A4). exists k1, l1, l1'. split; [exact A1|]. split.
    - rewrite <- A2. apply get_old. exact Hq.
    - split; [|exact A4]. eapply eimgs_ext; eauto. }
  split; [|exact X]. pose proof (i_len _ _ _ I) as IL. pose proof (get_lt _ _ _ G) as Lp. fold N0 in Lp.
  constructor.
  - lia.
  - intros x Hx. unfold h'. rewrite get_old by lia. apply (i_old _ _ _ I). exact Hx.
  - intros x q. unfold m', remember. destruct (Nat.eqb_spec x p) as [->|Nx].
    + intros E. injection E as <-. split; [exact Lp|]. lia.
    + intros E. apply (i_dom _ _ _ I) in E. lia.
  - intros x y q. unfold m', remember. destruct (Nat.eqb_spec x p) as [->|Nx], (Nat.eqb_spec y p) as [->|Ny]; intros E1 E2; auto.
    + injection E1 as <-. apply (i_dom _ _ _ I) in E2. lia.
    + injection E2 as <-. apply (i_dom _ _ _ I) in E1. lia.
    + eapply i_inj; eauto.
  - intros x q. unfold m', remember. destruct (Nat.eqb_spec x p) as [->|Nx]; [intros _; exact NF|]. apply (i_nfr _ _ _ I).
  - intros q Hq. destruct (i_open _ _ _ I q Hq) as (k1 & K1 & G1). exists k1. split; [exact K1|].
    unfold h'. rewrite get_old by (eapply get_lt; eauto). exact G1.
  - intros x q. unfold m', remember. destruct (Nat.eqb_spec x p) as [->|Nx].
    + intros E Hq. injection E as <-. exfalso. exact (Old _ Hq eq_refl).
    + apply (i_opk _ _ _ I).
  - intros q Hq NO. destruct (Nat.eq_dec q (List.length h)) as [->|Nq]; [exists p; split; [exact C|]; intros _; unfold m', remember; rewrite Nat.eqb_refl; reflexivity|].
    destruct (i_new _ _ _ I q) as (x & Cx & Mx); [lia|exact NO|]. exists x. split; [apply Keep; [lia|exact Cx]|]. intros NM. apply (e_mem _ _ _ _ X); auto.
  - intros x q. unfold m', remember. destruct (Nat.eqb_spec x p) as [->|Nx].
    + intros E _. injection E as <-. exact C.
    + intros E NO. apply Keep; [apply (i_dom _ _ _ I) in E; lia|]. apply (i_cop _ _ _ I); assumption.
Qed.

(** A new object is remembered before its parts are copied. *)
Lemma begin_good : forall O h m p k l,
  Inv O h m -> get h0 p = Some (MkObj k l) -> open_kind k -> m p = None ->
  let q := List.length h in
  Inv (q :: O) (h ++ [MkObj k []]) (remember m p q) /\
  ext h m (h ++ [MkObj k []]) (remember m p q).
Proof.
  intros O h m p k l I G OK MN q.
  set (h' := h ++ [MkObj k []]). set (m' := remember m p q).
  assert (X : ext h m h' m').
  { constructor.
    - unfold h'. rewrite app_len. lia.
    - intros x Hx. apply get_old. exact Hx.
    - intros x y K E. unfold m', remember. destruct (Nat.eqb_spec x p) as [->|Nx]; [congruence|exact E].
    - intros x E. unfold m', remember. destruct (x =? p); [discriminate|exact E]. }
  assert (Lh : List.length h' = S q) by apply app_len.
  assert (NF : ~ frozen h0 (RPtr p)).
  { intros Fz. apply frozen_kind in Fz. unfold kind_of in Fz. rewrite G in Fz. injection Fz as Fz.
    destruct OK as [->|[->|[c ->]]]; discriminate. }
  assert (Keep : forall x y, y < q -> copy_of h m x y -> copy_of h' m' x y).
  { intros x y Hy (k1 & l1 & l1' & A1 & A2 & A3 & A4). exists k1, l1, l1'. split; [exact A1|]. split.
    - rewrite <- A2. apply get_old. exact Hy.
    - split; [|exact A4]. eapply eimgs_ext; eauto. }
  pose proof (i_len _ _ _ I) as IL. pose proof (get_lt _ _ _ G) as Lp. fold N0 in Lp. unfold q in *.
  split; [|exact X]. constructor.
  - lia.
  - intros x Hx. unfold h'. rewrite get_old by lia. apply (i_old _ _ _ I). exact Hx.
  - intros x y. unfold m', remember. destruct (Nat.eqb_spec x p) as [->|Nx].
    + intros E. injection E as <-. split; [exact Lp|]. lia.
    + intros E. apply (i_dom _ _ _ I) in E. lia.
  - intros x y z. unfold m', remember. destruct (Nat.eqb_spec x p) as [->|Nx], (Nat.eqb_spec y p) as [->|Ny]; intros E1 E2; auto.
    + injection E1 as <-. apply (i_dom _ _ _ I) in E2. lia.
    + injection E2 as <-. apply (i_dom _ _ _ I) in E1. lia.
    + eapply i_inj; eauto.
  - intros x y. unfold m', remember. destruct (Nat.eqb_spec x p) as [->|Nx]; [intros _; exact NF|]. apply (i_nfr _ _ _ I).
  - intros y [<-|Hy].
    + exists k. split; [exact OK|]. apply get_new.
    + destruct (i_open _ _ _ I y Hy) as (k1 & K1 & G1). exists k1. split; [exact K1|].
      unfold h'. rewrite get_old by (eapply get_lt; eauto). exact G1.
  - intros x y. unfold m', remember. destruct (Nat.eqb_spec x p) as [->|Nx].
    + intros _ _. exists k, l. auto.
    + intros E [<-|Hy]; [apply (i_dom _ _ _ I) in E; lia|]. eapply i_opk; eauto.
  - intros y Hy NO. destruct (Nat.eq_dec y (List.length h)) as [->|Ny]; [exfalso; apply NO; now left|].
    destruct (i_new _ _ _ I y) as (x & Cx & Mx); [lia|intros Hc; apply NO; now right|]. exists x. split; [apply Keep; [lia|exact Cx]|]. intros NM. apply (e_mem _ _ _ _ X); auto.
  - intros x y. unfold m', remember. destruct (Nat.eqb_spec x p) as [->|Nx].
    + intros E NO. injection E as <-. exfalso. apply NO. now left.
    + intros E NO. apply Keep; [apply (i_dom _ _ _ I) in E; lia|]. apply (i_cop _ _ _ I); [exact E|]. intros Hc. apply NO. now right.
Qed.

(** The object is filled with the copies. *)
Lemma fill_good : forall O q h m p k l l',
  Inv (q :: O) h m -> ~ In q O -> get h q = Some (MkObj k []) -> get h0 p = Some (MkObj k l) -> open_kind k ->
  m p = Some q -> Forall2 (eimg h m) l l' ->
  Inv O (put h q (MkObj k l')) m.
Proof.
  intros O q h m p k l l' I NO G G0 OK M F.
  set (h' := put h q (MkObj k l')).
  assert (Lh : List.length h' = List.length h) by apply put_length.
  pose proof (get_lt _ _ _ G) as Lq. pose proof (proj2 (i_dom _ _ _ I _ _ M)) as Dq.
  assert (EI : forall a b, Forall2 (eimg h m) a b -> Forall2 (eimg h' m) a b).
  { intros a b FF. induction FF as [|x x' a b [E J] FF IH]; constructor; auto. split; [exact E|].
    eapply img_mono; [|intros ? ? _ E'; exact E'|exact J].
    intros y f s Gy. apply get_put_other. intros ->. rewrite G in Gy. injection Gy as -> Gy.
    discriminate. }
  assert (Keep : forall x y, y <> q -> copy_of h m x y -> copy_of h' m x y).
  { intros x y Ny (k1 & l1 & l1' & A1 & A2 & A3 & A4). exists k1, l1, l1'. split; [exact A1|]. split.
    - rewrite <- A2. apply get_put_other. exact Ny.
    - split; [|exact A4]. apply EI. exact A3. }
  assert (C : copy_of h' m p q).
  { exists k, l, l'. split; [exact G0|]. split; [apply get_put_same; exact Lq|]. split; [apply EI; exact F|].
    intros ->. destruct OK as [E|[E|[c E]]]; discriminate. }
  pose proof (i_len _ _ _ I) as IL.
  constructor.
  - lia.
  - intros x Hx. unfold h'. rewrite get_put_other by lia. apply (i_old _ _ _ I). exact Hx.
  - intros x y E. rewrite Lh. apply (i_dom _ _ _ I). exact E.
  - apply (i_inj _ _ _ I).
  - apply (i_nfr _ _ _ I).
  - intros y Hy. destruct (i_open _ _ _ I y (or_intror Hy)) as (k1 & K1 & G1). exists k1. split; [exact K1|].
    unfold h'. rewrite get_put_other; [exact G1|]. intros ->. contradiction.
  - intros x y E Hy. eapply i_opk; eauto. now right.
  - intros y Hy NY. destruct (Nat.eq_dec y q) as [->|Ny]; [exists p; split; [exact C|intros _; exact M]|].
    destruct (i_new _ _ _ I y) as (x & Cx & Mx); [lia|intros [->|Hc]; contradiction|]. exists x. split; [apply Keep; assumption|exact Mx].
  - intros x y E NY. destruct (Nat.eq_dec y q) as [->|Ny].
    + assert (x = p) by (eapply i_inj; eauto). subst x. exact C.
    + apply Keep; [exact Ny|]. apply (i_cop _ _ _ I); [exact E|]. intros [Hc|Hc]; [congruence|contradiction].
Qed.

Lemma parts_valid : forall p k l, get h0 p = Some (MkObj k l) -> forall a r, In (a, r) l -> valid r.
Proof.
  intros p k l G a [c|q] H; simpl; [exact Coq.Init.Logic.I|]. apply (wf_closed _ WF p q). exists k, l, a. auto.
Qed.
Lemma parts_reach : forall p k l, get h0 p = Some (MkObj k l) -> forall x, (exists a r, In (a, r) l /\ reach h0 r x) ->
  reach h0 (RPtr p) x.
Proof.
  intros p k l G x (a & r & H & Hr). eapply reach_step; [|exact Hr]. exists k, l, a. auto.
Qed.

Lemma alloc_img : forall O h m p k l l', Inv O h m -> get h0 p = Some (MkObj k l) ->
  Forall2 (eimg h m) l l' -> ext h m (h ++ [MkObj k l']) (remember m p (List.length h)) ->
  img (h ++ [MkObj k l']) (remember m p (List.length h)) (RPtr p) (RPtr (List.length h)).
Proof.
  intros O h m p k l l' I G F X. simpl. right.
  destruct (kind_eqb k OMethod) as [->|NK].
  - right. split; [apply (i_len _ _ _ I)|].
    destruct (wf_method _ WF _ _ G) as (f & s & c & E & K). subst l.
    inversion F as [|x1 y1 l1 l1' [E1 J1] F1]; subst. inversion F1 as [|x2 y2 l2 l2' [E2 J2] F2]; subst. inversion F2; subst.
    destruct y1 as [a1 r1], y2 as [a2 r2]. simpl in *. subst a1 a2.
    destruct r1 as [b|]; [|contradiction]. subst b. destruct r2 as [|q']; [contradiction|].
    assert (Ks : kind_of h0 s <> Some OMethod) by (eapply not_method_inst; eauto).
    destruct J2 as [[Fz _]|[[_ M]|[_ (f' & s1 & s2 & A & _)]]].
    + apply frozen_kind in Fz. congruence.
    + exists f, s, q'. split; [exact G|]. split; [apply get_new|]. apply (e_mem _ _ _ _ X); [exact Ks|exact M].
    + exfalso. apply Ks. unfold kind_of. rewrite A. reflexivity.
  - left. split.
    + unfold kind_of. rewrite G. simpl. congruence.
    + unfold remember. rewrite Nat.eqb_refl. reflexivity.
Qed.

Theorem dcopy_good : forall n, dc_good (dcopy n).
Proof.
  induction n as [|n IH]; intros O h m r h' m' r' I V H; simpl in H; [discriminate|].
  destruct r as [a|p].
  - injection H as <- <- <-. split; [exact I|]. split; [apply ext_refl|]. split; [reflexivity|]. auto.
  - destruct (m p) as [q|] eqn:Mp.
    + injection H as <- <- <-. split; [exact I|]. split; [apply ext_refl|]. split; [|auto].
      simpl. right. destruct (kind_of h0 p) as [k|] eqn:K; [|left; split; [discriminate|exact Mp]].
      destruct (kind_eqb k OMethod) as [->|NK]; [|left; split; [congruence|exact Mp]].
      right. split; [apply (i_dom _ _ _ I) in Mp; lia|].
      unfold kind_of in K. destruct (get h0 p) as [[k0 l]|] eqn:G; [|discriminate]. injection K as ->.
      assert (NO : ~ In q O).
      { intros Hq. destruct (i_opk _ _ _ I _ _ Mp Hq) as (k1 & l1 & OK & G1). rewrite G in G1. injection G1 as <- _.
        destruct OK as [E|[E|[c E]]]; discriminate. }
      destruct (i_cop _ _ _ I _ _ Mp NO) as (k & l1 & l' & A1 & A2 & F & _). rewrite G in A1. injection A1 as <- <-.
      destruct (wf_method _ WF _ _ G) as (f & s & c & E & K). subst l.
      inversion F as [|x1 y1 w1 w1' [E1 J1] F1]; subst. inversion F1 as [|x2 y2 w2 w2' [E2 J2] F2]; subst. inversion F2; subst.
      destruct y1 as [a1 r1], y2 as [a2 r2]. simpl in *. subst a1 a2.
      destruct r1 as [b|]; [|contradiction]. subst b. destruct r2 as [|q']; [contradiction|].
      assert (Ks : kind_of h0 s <> Some OMethod) by (eapply not_method_inst; eauto).
      destruct J2 as [[Fz _]|[[_ M]|[_ (f' & s1 & s2 & A & _)]]].
      * apply frozen_kind in Fz. congruence.
      * exists f, s, q'. auto.
      * exfalso. apply Ks. unfold kind_of. rewrite A. reflexivity.
    + simpl in V. assert (Gh : get h p = get h0 p) by (apply (i_old _ _ _ I); exact V).
      destruct (get h p) as [[k l]|] eqn:G; [|discriminate]. symmetry in Gh.
      pose proof (parts_valid _ _ _ Gh) as PV.
      assert (Late : forall h1 m1 l1, k <> OGen -> ~ frozen h0 (RPtr p) ->
                Inv O h1 m1 -> ext h m h1 m1 -> Forall2 (eimg h1 m1) l l1 ->
                (forall x, m1 x = m x \/ exists a r, In (a, r) l /\ reach h0 r (RPtr x)) ->
                (k <> OMethod -> m1 p = None) ->
                good O h m (RPtr p) (h1 ++ [MkObj k l1]) (remember m1 p (List.length h1)) (RPtr (List.length h1))).
      { intros h1 m1 l1 NG NF I1 X1 F1 R1 MN.
        destruct (alloc_good _ _ _ _ _ _ _ I1 Gh NG F1 NF MN) as [I2 X2].
        split; [exact I2|]. split; [eapply ext_trans; eauto|]. split; [eapply alloc_img; eauto|].
        intros x. unfold remember. destruct (Nat.eqb_spec x p) as [->|Nx].
        - right. apply reach_refl.
        - destruct (R1 x) as [E|E]; [left; exact E|right]. eapply parts_reach; eauto. }
      assert (Early : open_kind k ->
                (do (h1, m1, l1) <- copy_parts (dcopy n) (h ++ [MkObj k []]) (remember m p (List.length h)) l;
                 Ok (put h1 (List.length h) (MkObj k l1), m1, RPtr (List.length h))) = Ok (h', m', r') ->
                good O h m (RPtr p) h' m' r').
      { intros OK H'. destruct (begin_good _ _ _ _ _ _ I Gh OK Mp) as [I1 X1].
        set (q := List.length h) in *.
        destruct (copy_parts (dcopy n) (h ++ [MkObj k []]) (remember m p q) l) as [[[h1 m1] l1]|] eqn:E1; [|discriminate].
        cbn [bind] in H'. injection H' as <- <- <-.
        destruct (parts_good _ IH _ _ _ _ _ _ _ I1 PV E1) as (I2 & X2 & F2 & R2).
        assert (Gq : get h1 q = Some (MkObj k [])).
        { rewrite (e_get _ _ _ _ X2) by (rewrite app_len; unfold q; lia). apply get_new. }
        assert (Kp : kind_of h0 p <> Some OMethod).
        { unfold kind_of. rewrite Gh. simpl. destruct OK as [->|[->|[c ->]]]; discriminate. }
        assert (Mq : m1 p = Some q).
        { apply (e_mem _ _ _ _ X2); [exact Kp|]. unfold remember. rewrite Nat.eqb_refl. reflexivity. }
        assert (NO : ~ In q O) by (intros Hq; pose proof (inv_not_open _ _ _ _ I Hq); unfold q in *; lia).
        pose proof (fill_good _ _ _ _ _ _ _ _ I2 NO Gq Gh OK Mq F2) as I3.
        split; [exact I3|]. split.
        - constructor.
          + rewrite put_length. pose proof (e_len _ _ _ _ X1). pose proof (e_len _ _ _ _ X2). lia.
          + intros x Hx. rewrite get_put_other by (unfold q; lia).
            rewrite (e_get _ _ _ _ X2) by (rewrite app_len; lia). apply get_old. exact Hx.
          + intros x y K E. apply (e_mem _ _ _ _ X2); [exact K|]. apply (e_mem _ _ _ _ X1); assumption.
          + intros x E. apply (e_dom _ _ _ _ X2). apply (e_dom _ _ _ _ X1). exact E.
        - split; [simpl; right; left; auto|].
          intros x. destruct (R2 x) as [E|E]; [|right; eapply parts_reach; eauto].
          rewrite E. unfold remember. destruct (Nat.eqb_spec x p) as [->|Nx]; [right; apply reach_refl|now left]. }
      destruct k; try (apply Early; [unfold open_kind; eauto|exact H]); try discriminate;
        (destruct (copy_parts (dcopy n) h m l) as [[[h1 m1] l1]|] eqn:E1; [|discriminate]; cbn [bind] in H;
         destruct (parts_good _ IH _ _ _ _ _ _ _ I PV E1) as (I1 & X1 & F1 & R1)).
      * (* tuple *)
        destruct (m1 p) as [q|] eqn:M1.
        { injection H as <- <- <-. split; [exact I1|]. split; [exact X1|]. split.
          - simpl. right. left. split; [unfold kind_of; rewrite Gh; discriminate|exact M1].
          - intros x. destruct (R1 x) as [E|E]; [left; exact E|right; eapply parts_reach; eauto]. }
        destruct (same_refs l l1) eqn:SR.
        { injection H as <- <- <-. split; [exact I1|]. split; [exact X1|]. split.
          - simpl. left. split; [|reflexivity]. econstructor; [exact Gh|].
            intros a r Hr. eapply same_refs_frozen; eauto.
          - intros x. destruct (R1 x) as [E|E]; [left; exact E|right; eapply parts_reach; eauto]. }
        injection H as <- <- <-. apply Late; auto; try discriminate.
        intros Fz. inversion Fz as [|p' l' G' Z E]; subst. rewrite Gh in G'. injection G' as <-.
        rewrite (frozen_same_refs _ _ _ _ _ I1 Z F1) in SR. discriminate.
      * (* set *)
        injection H as <- <- <-. apply Late; auto; try discriminate.
        -- intros Fz. apply frozen_kind in Fz. unfold kind_of in Fz. rewrite Gh in Fz. discriminate.
        -- intros _. destruct (R1 p) as [E|(a & r & Hr & Hp)]; [congruence|]. exfalso.
           apply (wf_sets _ WF p OSet r); [unfold kind_of; rewrite Gh; reflexivity|auto| |exact Hp]. exists OSet, l, a. auto.
      * injection H as <- <- <-. apply Late; auto; try discriminate.
        -- intros Fz. apply frozen_kind in Fz. unfold kind_of in Fz. rewrite Gh in Fz. discriminate.
        -- intros _. destruct (R1 p) as [E|(a & r & Hr & Hp)]; [congruence|]. exfalso.
           apply (wf_sets _ WF p OFrozenset r); [unfold kind_of; rewrite Gh; reflexivity|auto| |exact Hp]. exists OFrozenset, l, a. auto.
      * injection H as <- <- <-. apply Late; auto; try discriminate.
        -- intros Fz. apply frozen_kind in Fz. unfold kind_of in Fz. rewrite Gh in Fz. discriminate.
        -- intros Hc. contradiction.
Qed.
End Copy.
