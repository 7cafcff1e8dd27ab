(** Lemmas about copy(): it succeeds, the result is alike and stands for the same value. *)
From Coq Require Import Lia.
From Verif Require Import Base NumFmt Value Heap SpecHeap PfHeap.
Open Scope nat_scope.

(** ** Enough depth *)
Section Enough.
Variable h0 : heap.
Hypothesis WF : well_formed h0.
Variable rank : addr -> nat.
Hypothesis RB : forall p, p < List.length h0 -> rank p <= List.length h0.
Hypothesis RD : forall p q k k', kind_of h0 p = Some k -> composite k -> refers h0 p (RPtr q) ->
  kind_of h0 q = Some k' -> composite k' -> rank q < rank p.
Let N0 := List.length h0.

Definition todo (m : memo) : nat :=
  List.length (filter (fun p => match m p with None => true | _ => false end) (seq 0 N0)).
Lemma filter_le : forall (f g : nat -> bool) l, (forall x, f x = true -> g x = true) ->
  List.length (filter f l) <= List.length (filter g l).
Proof.
  intros f g l H. induction l as [|x l IH]; simpl; [lia|].
  destruct (f x) eqn:F; [rewrite (H _ F); simpl; lia|]. destruct (g x); simpl; lia.
Qed.
Lemma filter_lt : forall (f g : nat -> bool) l p, (forall x, f x = true -> g x = true) ->
  In p l -> f p = false -> g p = true -> List.length (filter f l) < List.length (filter g l).
Proof.
  intros f g l p H. induction l as [|x l IH]; simpl; intros I F G; [contradiction|].
  destruct I as [->|I].
  - rewrite F, G. simpl. pose proof (filter_le f g l H). lia.
  - specialize (IH I F G). destruct (f x) eqn:Fx; [rewrite (H _ Fx); simpl; lia|]. destruct (g x); simpl; lia.
Qed.
Lemma todo_mono : forall m m', (forall p, m p <> None -> m' p <> None) -> todo m' <= todo m.
Proof.
  intros m m' H. apply filter_le. intros x Hx. specialize (H x).
  destruct (m x); [|reflexivity]. destruct (m' x); [discriminate|]. exfalso. apply H; [discriminate|reflexivity].
Qed.
Lemma todo_less : forall m p q, m p = None -> p < N0 -> todo (remember m p q) < todo m.
Proof.
  intros m p q M L. apply filter_lt with (p := p).
  - intros x. unfold remember. destruct (x =? p); [discriminate|auto].
  - apply in_seq. lia.
  - unfold remember. rewrite Nat.eqb_refl. reflexivity.
  - rewrite M. reflexivity.
Qed.
Lemma todo_all : forall m, todo m <= N0.
Proof.
  intros m. unfold todo. assert (G : forall (f : nat -> bool) l, List.length (filter f l) <= List.length l).
  { intros f l. induction l as [|x l IH]; simpl; [lia|]. destruct (f x); simpl; lia. }
  etransitivity; [apply G|]. rewrite seq_length. lia.
Qed.
Definition compositeb (k : kind) : bool := match k with OTuple | OSet | OFrozenset => true | _ => false end.
Lemma compositeb_ok : forall k, compositeb k = true <-> composite k.
Proof.
  intros k. unfold composite. destruct k; simpl; split; intros H; try discriminate; auto;
    destruct H as [H|[H|H]]; discriminate.
Qed.
(** Methods come before their instance. *)
Definition weight (r : ref) : nat :=
  match r with
  | RAtom _ => 0
  | RPtr p => match kind_of h0 p with
              | Some k => if compositeb k then rank p + 2 else 1
              | None => 0
              end
  end.
Definition weight' (r : ref) : nat :=
  match r with
  | RPtr p => match kind_of h0 p with Some (OList | ODict | OInst _) => 0 | _ => weight r + 1 end
  | RAtom _ => 0
  end.

Definition enough (m : memo) (r : ref) : nat := todo m * (N0 + 4) + weight' r + 1.

Lemma weight_bound : forall r, valid h0 r -> weight' r <= N0 + 3.
Proof.
  intros [a|p] V; simpl; [lia|]. simpl in V. pose proof (RB p V). fold N0 in H.
  destruct (kind_of h0 p) as [[]|]; simpl; lia.
Qed.
Definition has_gen (r : ref) : Prop := exists p l, reach h0 r (RPtr p) /\ get h0 p = Some (MkObj OGen l).

Lemma parts_enough : forall n, 
  (forall O h m r, Inv h0 O h m -> valid h0 r -> enough m r <= n ->
     (exists x, dcopy n h m r = Ok x) \/ (dcopy n h m r = Err ETypeError /\ has_gen r)) ->
  forall l O h m, Inv h0 O h m -> (forall a r, In (a, r) l -> valid h0 r) ->
  (forall a r, In (a, r) l -> enough m r <= n) ->
  (exists x, copy_parts (dcopy n) h m l = Ok x) \/
  (copy_parts (dcopy n) h m l = Err ETypeError /\ exists a r, In (a, r) l /\ has_gen r).
Proof.
  intros n IH. induction l as [|[a r] l IHl]; intros O h m I V En; simpl; [eauto|].
  destruct (IH O h m r I (V a r (or_introl eq_refl)) (En a r (or_introl eq_refl))) as [[[[h1 m1] r1] E]|[E HG]]; rewrite E; cbn [bind].
  - destruct (dcopy_good h0 WF n O h m r h1 m1 r1 I (V a r (or_introl eq_refl)) E) as (I1 & X1 & _ & _).
    destruct (IHl O h1 m1 I1 (fun b s Hb => V b s (or_intror Hb))) as [[[[h2 m2] l2] E2]|[E2 (b & s & Hb & HG)]].
    + intros b s Hb. specialize (En b s (or_intror Hb)). unfold enough in *.
      pose proof (todo_mono m m1 (e_dom _ _ _ _ _ X1)). nia.
    + rewrite E2. cbn [bind]. eauto.
    + rewrite E2. cbn [bind]. right. split; [reflexivity|]. exists b, s. split; [now right|exact HG].
  - right. split; [reflexivity|]. exists a, r. split; [now left|exact HG].
Qed.

Lemma dcopy_enough : forall n O h m r, Inv h0 O h m -> valid h0 r -> enough m r <= n ->
  (exists x, dcopy n h m r = Ok x) \/ (dcopy n h m r = Err ETypeError /\ has_gen r).
Proof.
  induction n as [|n IH]; intros O h m r I V En; [unfold enough in En; lia|].
  cbn [dcopy]. destruct r as [a|p]; [eauto|]. destruct (m p) as [q|] eqn:Mp; [eauto|]. simpl in V.
  rewrite (i_old _ _ _ _ I p V).
  destruct (get_some h0 p V) as (k & l & G). rewrite G.
  pose proof (parts_valid h0 WF _ _ _ G) as PV.
  assert (HG : forall a r, In (a, r) l -> has_gen r -> has_gen (RPtr p)).
  { intros a r Hr (x & lx & R & Gx). exists x, lx. split; [|exact Gx]. eapply reach_step; [|exact R]. exists k, l, a. auto. }
  assert (Kp : kind_of h0 p = Some k) by (unfold kind_of; rewrite G; reflexivity).
  assert (Early : open_kind k -> forall q k1,
    (exists x, (do (h1, m1, l1) <- copy_parts (dcopy n) (h ++ [MkObj k []]) (remember m p (List.length h)) l;
       Ok (put h1 q (MkObj k1 l1), m1, RPtr q)) = Ok x) \/
    ((do (h1, m1, l1) <- copy_parts (dcopy n) (h ++ [MkObj k []]) (remember m p (List.length h)) l;
       Ok (put h1 q (MkObj k1 l1), m1, RPtr q)) = Err ETypeError /\ has_gen (RPtr p))).
  { intros OK q k1. destruct (begin_good h0 WF _ _ _ _ _ _ I G OK Mp) as [I1 X1].
    destruct (parts_enough n IH l _ _ _ I1 PV) as [[[[h1 m1] l1] E]|[E (a & r & Hr & Hg)]].
    - intros a r Hr. pose proof (todo_less m p (List.length h) Mp V) as TL.
      pose proof (weight_bound r (PV a r Hr)) as WB. unfold enough in *. nia.
    - rewrite E. cbn [bind]. eauto.
    - rewrite E. cbn [bind]. right. split; [reflexivity|]. eapply HG; eauto. }
  assert (Late : (compositeb k = true \/ k = OMethod) ->
    (exists x, copy_parts (dcopy n) h m l = Ok x) \/ (copy_parts (dcopy n) h m l = Err ETypeError /\ has_gen (RPtr p))).
  { intros LK. destruct (parts_enough n IH l _ _ _ I PV) as [[x E]|[E (a & r & Hr & Hg)]].
    - intros a r Hr. unfold enough in *. cut (weight' r < weight' (RPtr p)); [lia|].
      unfold weight', weight. destruct r as [b|q].
      + rewrite Kp. destruct k; try lia; destruct LK; discriminate.
      + assert (Vq : q < List.length h0) by exact (PV a (RPtr q) Hr).
        destruct (get_some h0 q Vq) as (k' & l' & Gq).
        assert (Kq : kind_of h0 q = Some k') by (unfold kind_of; rewrite Gq; reflexivity).
        rewrite Kq, Kp.
        destruct LK as [LK| ->].
        * destruct (compositeb k') eqn:C'.
          -- assert (rank q < rank p).
             { eapply RD; eauto; try (apply compositeb_ok; assumption). exists k, l, a. auto. }
             destruct k; try discriminate; destruct k'; try discriminate; simpl; lia.
          -- destruct k; try discriminate; destruct k'; try discriminate; simpl; lia.
        * destruct (wf_method _ WF _ _ G) as (f & s & c & El & Ks). subst l.
          destruct Hr as [Hr|[Hr|[]]]; [discriminate|]. injection Hr as _ <-. rewrite Ks in Kq. injection Kq as <-. simpl. lia.
    - eauto.
    - right. split; [exact E|]. eapply HG; eauto. }
  destruct k; try (apply Early; unfold open_kind; eauto);
    try (destruct Late as [[[[h1 m1] l1] E]|[E Hg]]; [auto|rewrite E; cbn [bind]; eauto|rewrite E; cbn [bind]; right; auto]).
  - destruct (m1 p); [eauto|]. destruct (same_refs l l1); eauto.
  - right. split; [reflexivity|]. exists p, l. split; [apply reach_refl|exact G].
Qed.
End Enough.
