(** Lemmas: alike objects stand for the same value. *)
From Coq Require Import Lia.
From Verif Require Import Base NumFmt Value Heap SpecHeap PfHeap.
Open Scope nat_scope.

Definition rrel {A B} (R : A -> B -> Prop) (x : res A) (y : res B) : Prop :=
  match x, y with
  | Ok a, Ok b => R a b
  | Err e, Err e' => e = e'
  | _, _ => False
  end.
Lemma rrel_eq : forall A (x y : res A), rrel eq x y -> x = y.
Proof. intros A [a|e] [b|e'] H; simpl in H; try contradiction; subst; reflexivity. Qed.
Lemma rrel_refl : forall A (x : res A), rrel eq x x.
Proof. intros A [a|e]; reflexivity. Qed.
Lemma rrel_bind : forall A B C D (R : A -> B -> Prop) (T : C -> D -> Prop) x y f g,
  rrel R x y -> (forall a b, R a b -> rrel T (f a) (g b)) -> rrel T (bind x f) (bind y g).
Proof. intros A B C D R T [a|e] [b|e'] f g H K; simpl in *; try contradiction; auto. Qed.
Lemma rrel_rmap : forall A B C D (R : A -> B -> Prop) (T : C -> D -> Prop) x y f g,
  rrel R x y -> (forall a b, R a b -> T (f a) (g b)) -> rrel T (rmap f x) (rmap g y).
Proof. intros A B C D R T [a|e] [b|e'] f g H K; simpl in *; try contradiction; auto. Qed.
Lemma rrel_mapM : forall A B C (R : A -> B -> Prop) (f : A -> res C) g l l',
  Forall2 R l l' -> (forall a b, R a b -> rrel eq (f a) (g b)) -> rrel eq (mapM f l) (mapM g l').
Proof.
  intros A B C R f g l l' F H. induction F as [|x y l l' E F IH]; simpl; [reflexivity|].
  specialize (H _ _ E). destruct (f x), (g y); simpl in *; try contradiction; [|exact H]. subst.
  destruct (mapM f l), (mapM g l'); simpl in *; try contradiction; [|exact IH]. subst. reflexivity.
Qed.

Section Alike.
Variables h h' : heap.
Variable B : ref -> ref -> Prop.
Hypothesis AL : alike_by B h h'.

Definition erel (x x' : label * ref) : Prop := fst x = fst x' /\ B (snd x) (snd x').
Definition orel (o o' : obj) : Prop := o_kind o = o_kind o' /\ Forall2 erel (o_refs o) (o_refs o').
Definition prel (x x' : ref * ref) : Prop := B (fst x) (fst x') /\ B (snd x) (snd x').

Lemma al_obj_at : forall r r', B r r' -> rrel orel (obj_at h r) (obj_at h' r').
Proof.
  intros [a|p] r' H.
  - apply (al_atom _ _ _ AL) in H. subst r'. reflexivity.
  - destruct (al_obj _ _ _ AL _ _ H) as (q & k & l & l' & -> & G & G' & F). simpl. rewrite G, G'. split; [reflexivity|exact F].
Qed.
Lemma al_find_attr : forall k l l', Forall2 erel l l' -> rrel B (find_attr k l) (find_attr k l').
Proof.
  intros k l l' F. induction F as [|[a r] [a' r'] l l' [E J] F IH]; simpl; [reflexivity|].
  simpl in E, J. subst a'. destruct a; auto. destruct (String.eqb k name); auto.
Qed.
Lemma al_items : forall l l', Forall2 erel l l' -> Forall2 B (items_of l) (items_of l').
Proof.
  intros l l' F. induction F as [|[a r] [a' r'] l l' [E J] F IH]; simpl; [constructor|].
  simpl in E, J. subst a'. destruct a; auto.
Qed.
Lemma al_pairs : forall l l', Forall2 erel l l' -> Forall2 prel (pairs_of l) (pairs_of l').
Proof.
  fix IH 3. intros l l' F. destruct F as [|[a r] [a' r'] l l' [E J] F]; [constructor|].
  simpl in E, J. subst a'. destruct F as [|[b s] [b' s'] l l' [E' J'] F]; [destruct a; constructor|].
  simpl in E', J'. subst b'. cbn [pairs_of]. destruct a; try constructor. destruct b; try constructor.
  - split; assumption.
  - apply IH. exact F.
Qed.
Lemma al_refs_at : forall k r r', B r r' -> rrel (Forall2 erel) (refs_at h k r) (refs_at h' k r').
Proof.
  intros k r r' H. unfold refs_at. eapply rrel_bind; [apply al_obj_at; exact H|].
  intros o o' [E F]. rewrite <- E. destruct (kind_eqb k (o_kind o)); [exact F|reflexivity].
Qed.
Lemma al_attr : forall k r r', B r r' -> rrel B (attr h k r) (attr h' k r').
Proof.
  intros k r r' H. unfold attr. eapply rrel_bind; [apply al_obj_at; exact H|].
  intros o o' [E F]. apply al_find_attr. exact F.
Qed.
Lemma al_datom : forall r r', B r r' -> d_atom r = d_atom r'.
Proof.
  intros [a|p] r' H.
  - apply (al_atom _ _ _ AL) in H. subst. reflexivity.
  - destruct (al_obj _ _ _ AL _ _ H) as (q & k & l & l' & -> & _). reflexivity.
Qed.
Lemma al_datom' : forall r r', B r r' -> rrel eq (d_atom r) (d_atom r').
Proof. intros r r' H. rewrite (al_datom _ _ H). apply rrel_refl. Qed.
Lemma al_dstr : forall r r', B r r' -> rrel eq (d_str r) (d_str r').
Proof. intros r r' H. unfold d_str. rewrite (al_datom _ _ H). apply rrel_refl. Qed.
Lemma al_dbool : forall r r', B r r' -> rrel eq (d_bool r) (d_bool r').
Proof. intros r r' H. unfold d_bool. rewrite (al_datom _ _ H). apply rrel_refl. Qed.
Lemma al_dint : forall r r', B r r' -> rrel eq (d_int_or_none r) (d_int_or_none r').
Proof. intros r r' H. unfold d_int_or_none. rewrite (al_datom _ _ H). apply rrel_refl. Qed.
Lemma al_dsort : forall r r', B r r' -> rrel eq (d_sort r) (d_sort r').
Proof. intros r r' H. unfold d_sort, d_str. rewrite (al_datom _ _ H). apply rrel_refl. Qed.
Lemma al_djoin : forall r r', B r r' -> rrel eq (d_jointy r) (d_jointy r').
Proof. intros r r' H. unfold d_jointy. rewrite (al_datom _ _ H). apply rrel_refl. Qed.
Lemma al_find_key : forall k l l', Forall2 prel l l' -> rrel B (find_key k l) (find_key k l').
Proof.
  intros k l l' F. induction F as [|[a r] [a' r'] l l' [E J] F IH]; simpl; [reflexivity|].
  simpl in E, J. pose proof (rrel_eq _ _ _ (al_dstr _ _ E)) as Es. rewrite <- Es.
  destruct (d_str a) as [s|]; [|exact IH]. destruct (seqb s (lit k)); auto.
Qed.
Lemma al_lookup : forall k r r', B r r' -> rrel B (lookup h k r) (lookup h' k r').
Proof.
  intros k r r' H. unfold lookup. eapply rrel_bind; [apply al_refs_at; exact H|].
  intros l l' F. apply al_find_key. apply al_pairs. exact F.
Qed.
Lemma al_same_inst : forall a a' b b', B a a' -> B b b' -> same_inst h a b = same_inst h' a' b'.
Proof.
  intros [x|p] a' [y|q] b' HA HB.
  - apply (al_atom _ _ _ AL) in HA. subst. reflexivity.
  - apply (al_atom _ _ _ AL) in HA. subst. reflexivity.
  - apply (al_atom _ _ _ AL) in HB. subst.
    destruct (al_obj _ _ _ AL _ _ HA) as (p' & k & l & l' & -> & _). reflexivity.
  - destruct (al_obj _ _ _ AL _ _ HA) as (p' & k & l & l' & -> & G & G' & F).
    destruct (al_obj _ _ _ AL _ _ HB) as (q' & k1 & l1 & l1' & -> & G1 & G1' & F1).
    simpl. rewrite G, G'. destruct k; simpl; rewrite ?andb_false_r; try reflexivity.
    rewrite !andb_true_r.
    destruct (kind_eqb k1 OMethod) as [->|NM].
    + destruct (Nat.eqb_spec p q) as [->|Np]; [congruence|]. destruct (Nat.eqb_spec p' q') as [->|Np']; [congruence|reflexivity].
    + assert (One : p = q <-> p' = q').
      { eapply al_one; eauto; unfold kind_of; [rewrite G|rewrite G1]; simpl; congruence. }
      destruct (Nat.eqb_spec p q) as [E|Np], (Nat.eqb_spec p' q') as [E'|Np']; auto; exfalso; intuition.
Qed.
Lemma al_parts : forall c r r', B r r' -> rrel (Forall2 B) (parts h c r) (parts h' c r').
Proof.
  intros c r r' H. unfold parts. eapply rrel_bind; [apply al_refs_at; exact H|]. intros _ _ _.
  eapply rrel_bind; [apply al_attr; exact H|]. intros p p' Hp.
  eapply rrel_bind; [apply al_refs_at; exact Hp|]. intros l l' F. simpl. apply al_items. exact F.
Qed.
Lemma al_qpart : forall k r r', B r r' -> rrel B (qpart h k r) (qpart h' k r').
Proof.
  intros k r r' H. unfold qpart. eapply rrel_bind; [apply al_attr; exact H|]. intros d d' Hd.
  eapply rrel_bind; [apply al_lookup; exact Hd|]. intros a a' Ha.
  eapply rrel_bind; [apply al_attr; exact H|]. intros b b' Hb.
  rewrite (al_same_inst _ _ _ _ Ha Hb). destruct (same_inst h' a' b'); [exact Ha|reflexivity].
Qed.
Lemma al_bound : forall r r' x x', B r r' -> prel x x' -> bound_to h r x = bound_to h' r' x'.
Proof.
  intros r r' [k v] [k' v'] H [Hk Hv]. unfold bound_to. simpl in *.
  pose proof (al_refs_at OMethod _ _ Hv) as F.
  destruct (refs_at h OMethod v) as [l|], (refs_at h' OMethod v') as [l'|]; simpl in F; try contradiction; [|reflexivity].
  destruct F as [|[a r1] [a' r1'] l l' [E1 J1] F]; [reflexivity|]. simpl in E1, J1. subst a'.
  destruct a; try reflexivity.
  destruct r1 as [x|p].
  - apply (al_atom _ _ _ AL) in J1. subst r1'. destruct x; try reflexivity.
    destruct F as [|[b r2] [b' r2'] l l' [E2 J2] F]; [reflexivity|]. simpl in E2, J2. subst b'. destruct b; try reflexivity.
    destruct F; [|reflexivity]. apply al_same_inst; assumption.
  - destruct (al_obj _ _ _ AL _ _ J1) as (p' & k1 & l1 & l1' & -> & _). reflexivity.
Qed.
Lemma al_self_bound : forall r r', B r r' -> rrel eq (self_bound h r) (self_bound h' r').
Proof.
  intros r r' H. unfold self_bound. eapply rrel_bind; [apply al_attr; exact H|]. intros d d' Hd.
  eapply rrel_bind; [apply al_refs_at; exact Hd|]. intros l l' F.
  assert (E : forallb (bound_to h r) (pairs_of l) = forallb (bound_to h' r') (pairs_of l')).
  { pose proof (al_pairs _ _ F) as P. induction P as [|x x' a a' Hx P IH]; [reflexivity|]. simpl.
    rewrite (al_bound _ _ _ _ H Hx), IH. reflexivity. }
  rewrite E. apply rrel_refl.
Qed.

Ltac prim := first [ eassumption | apply rrel_refl
  | apply al_refs_at; eassumption | apply al_attr; eassumption | apply al_lookup; eassumption
  | apply al_parts; eassumption | apply al_qpart; eassumption | apply al_self_bound; eassumption
  | apply al_datom'; eassumption | apply al_dstr; eassumption | apply al_dbool; eassumption | apply al_dint; eassumption
  | apply al_dsort; eassumption | apply al_djoin; eassumption ].
Ltac seqs := repeat (eapply rrel_bind; [solve [prim]|intros ? ? ?; try (match goal with H : _ = _ |- _ => subst end)]).

Lemma al_option : forall k r r', B r r' -> rrel eq (option_at h k r) (option_at h' k r').
Proof. intros k r r' H. unfold option_at. seqs. prim. Qed.
Lemma al_flag : forall k r r', B r r' -> rrel eq (flag h k r) (flag h' k r').
Proof. intros k r r' H. unfold flag. eapply rrel_bind; [apply al_option; exact H|]. intros ? ? ->. prim. Qed.
Ltac prim2 := first [ prim | apply al_option; eassumption | apply al_flag; eassumption ].
Ltac seqs2 := repeat (eapply rrel_bind; [solve [prim2]|intros ? ? ?; try (match goal with H : _ = _ |- _ => subst end)]).
Lemma al_selopts : forall r r', B r r' -> rrel eq (d_selopts h r) (d_selopts h' r').
Proof. intros r r' H. unfold d_selopts. seqs2. prim. Qed.
Lemma al_limits : forall r r', B r r' -> rrel eq (d_limits h r) (d_limits h' r').
Proof. intros r r' H. unfold d_limits. seqs2. prim. Qed.

Section Body.
Variables D D' : ref -> res val.
Hypothesis DD : forall r r', B r r' -> rrel eq (D r) (D' r').

Ltac prim3 := first [ prim2 | apply DD; eassumption ].
Ltac seqs3 := repeat (eapply rrel_bind; [solve [prim3]|intros ? ? ?; try (match goal with H : _ = _ |- _ => subst end)]).
Ltac maps := eapply rrel_mapM; [eassumption|intros ? ? ?].
Lemma al_column : forall r r', B r r' -> rrel eq (d_column h D r) (d_column h' D' r').
Proof. intros r r' H. unfold d_column. seqs3. prim. Qed.
Lemma al_columns : forall r r', B r r' -> rrel eq (d_columns h D r) (d_columns h' D' r').
Proof. intros r r' H. unfold d_columns. seqs3. maps. apply al_column; assumption. Qed.
Lemma al_order : forall r r', B r r' -> rrel eq (d_order h D r) (d_order h' D' r').
Proof. intros r r' H. unfold d_order. seqs3. prim. Qed.
Lemma al_orders : forall c r r', B r r' -> rrel eq (d_orders h D c r) (d_orders h' D' c r').
Proof. intros c r r' H. unfold d_orders. seqs3. maps. apply al_order; assumption. Qed.
Lemma al_named : forall r r', B r r' -> rrel eq (d_named h D r) (d_named h' D' r').
Proof. intros r r' H. unfold d_named. seqs3. prim. Qed.
Lemma al_conds : forall c r r', B r r' -> rrel eq (d_conds h D c r) (d_conds h' D' c r').
Proof. intros c r r' H. unfold d_conds. seqs3. maps. apply DD; assumption. Qed.
Ltac prim4 := first [ prim3 | apply al_columns; eassumption | apply al_orders; eassumption | apply al_named; eassumption
  | apply al_conds; eassumption | apply al_selopts; eassumption | apply al_limits; eassumption ].
Ltac seqs4 := repeat (eapply rrel_bind; [solve [prim4]|intros ? ? ?; try (match goal with H : _ = _ |- _ => subst end)]).
Lemma al_join : forall r r', B r r' -> rrel eq (d_join h D r) (d_join h' D' r').
Proof.
  intros r r' H. unfold d_join. seqs4.
  match goal with F : Forall2 erel ?l ?l' |- _ => destruct F end; [reflexivity|apply rrel_refl].
Qed.
Lemma al_table : forall r r', B r r' -> rrel eq (d_table h D r) (d_table h' D' r').
Proof.
  intros r r' H. unfold d_table. seqs4. eapply rrel_bind.
  - eapply rrel_mapM; [apply al_items; eassumption|]. intros. apply al_join. assumption.
  - intros ? ? ->. prim.
Qed.
Lemma al_tables : forall c r r', B r r' -> rrel eq (d_tables h D c r) (d_tables h' D' c r').
Proof. intros c r r' H. unfold d_tables. seqs4. maps. apply al_table; assumption. Qed.
Lemma al_opt : forall r r', B r r' -> rrel eq (d_opt D r) (d_opt D' r').
Proof. intros r r' H. unfold d_opt. seqs4. prim. Qed.
Ltac prim5 := first [ prim4 | apply al_tables; eassumption | apply al_opt; eassumption ].
Ltac seqs5 := repeat (eapply rrel_bind; [solve [prim5]|intros ? ? ?; try (match goal with H : _ = _ |- _ => subst end)]).
Lemma al_outfile : forall r r', B r r' -> rrel eq (d_outfile h D r) (d_outfile h' D' r').
Proof. intros r r' H. unfold d_outfile. seqs5. prim. Qed.
Lemma al_forupd : forall r r', B r r' -> rrel eq (d_forupd h r) (d_forupd h' r').
Proof. intros r r' H. unfold d_forupd. seqs5. prim. Qed.
Lemma al_select : forall r r', B r r' -> rrel eq (d_select h D r) (d_select h' D' r').
Proof.
  intros r r' H. unfold d_select. seqs5.
  eapply rrel_bind; [apply al_outfile; eassumption|]. intros ? ? ->. seqs5.
  eapply rrel_bind; [apply al_forupd; eassumption|]. intros ? ? ->. prim.
Qed.
Lemma al_keyword : forall r r', B r r' -> rrel eq (d_keyword h r) (d_keyword h' r').
Proof. intros r r' H. unfold d_keyword. seqs5. prim. Qed.
Lemma al_conflict : forall r r', B r r' -> rrel eq (d_conflict h r) (d_conflict h' r').
Proof.
  intros [a|p] r' H.
  - apply (al_atom _ _ _ AL) in H. subst. apply rrel_refl.
  - pose proof H as H0. destruct (al_obj _ _ _ AL _ _ H) as (q & k & l & l' & -> & _). unfold d_conflict. seqs5. prim.
Qed.
Lemma al_insert : forall r r', B r r' -> rrel eq (d_insert h D r) (d_insert h' D' r').
Proof.
  intros r r' H. unfold d_insert. seqs5.
  eapply rrel_bind; [apply al_keyword; eassumption|]. intros ? ? ->. seqs5.
  eapply rrel_bind; [eapply rrel_mapM; [eassumption|intros; apply al_conds; assumption]|]. intros ? ? ->. seqs5.
  eapply rrel_bind; [apply al_conflict; eassumption|]. intros ? ? ->. prim.
Qed.
Lemma al_update : forall r r', B r r' -> rrel eq (d_update h D r) (d_update h' D' r').
Proof. intros r r' H. unfold d_update. seqs5. prim. Qed.
Lemma al_delete : forall r r', B r r' -> rrel eq (d_delete h D r) (d_delete h' D' r').
Proof. intros r r' H. unfold d_delete. seqs5. prim. Qed.
Lemma al_union : forall r r', B r r' -> rrel eq (d_union h D r) (d_union h' D' r').
Proof. intros r r' H. unfold d_union. seqs5. prim. Qed.
Lemma al_condition : forall k r r', B r r' -> rrel eq (d_condition h D k r) (d_condition h' D' k r').
Proof. intros k r r' H. unfold d_condition. seqs5. prim. Qed.
Lemma al_coc : forall r r', B r r' -> rrel eq (d_coc h D r) (d_coc h' D' r').
Proof. intros r r' H. unfold d_coc. seqs5. prim. Qed.
Lemma al_convert : forall r r', B r r' -> rrel eq (d_convert h D r) (d_convert h' D' r').
Proof. intros r r' H. unfold d_convert. seqs5. prim. Qed.
Lemma al_inst : forall c r r', B r r' -> rrel eq (d_inst h D c r) (d_inst h' D' c r').
Proof.
  intros c r r' H. destruct c; cbn [d_inst];
    try (seqs5; prim);
    try (eapply rrel_rmap; [first [apply al_select|apply al_insert|apply al_update|apply al_delete]; exact H|intros ? ? ->; reflexivity]).
Qed.
Lemma al_dpair : forall x x', prel x x' -> rrel eq (d_pair D x) (d_pair D' x').
Proof. intros x x' [H1 H2]. unfold d_pair. seqs5. prim. Qed.
Lemma al_body : forall r r', B r r' -> rrel eq (d_body h D r) (d_body h' D' r').
Proof.
  intros [a|p] r' H.
  - apply (al_atom _ _ _ AL) in H. subst. apply rrel_refl.
  - pose proof H as H0. destruct (al_obj _ _ _ AL _ _ H) as (q & k & l & l' & -> & _). unfold d_body.
    eapply rrel_bind; [apply al_obj_at; exact H0|]. intros o o' [E F]. rewrite <- E.
    destruct (o_kind o); try reflexivity.
    1,3,4,5,6: eapply rrel_rmap; [eapply rrel_mapM; [apply al_items; exact F|exact DD]|intros ? ? ->; reflexivity].
    + eapply rrel_rmap; [eapply rrel_mapM; [apply al_pairs; exact F|exact al_dpair]|intros ? ? ->; reflexivity].
    + apply al_inst. exact H0.
Qed.
End Body.

Lemma al_decode : forall n r r', B r r' -> decode h n r = decode h' n r'.
Proof.
  intros n r r' H. apply rrel_eq. revert r r' H. induction n as [|n IH]; intros r r' H; [reflexivity|].
  cbn [decode]. apply al_body; [exact IH|exact H].
Qed.
End Alike.
