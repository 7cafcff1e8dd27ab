(** Proofs about equality: C39, C51. *)
From Coq Require Import Lia.
From Verif Require Import Base BaseFacts NumFmt Value Backend Eq Render RenderFacts ParseArgs Build Queries
  SpecArgs SpecClauses SpecEquality PfLiterals PfArgs PfHistories PfDedupe.
Open Scope N_scope.

(** ** C39 *)
Lemma relk_eqb_eq : forall a b, relk_eqb a b = true <-> a = b.
Proof. intros a b; destruct a, b; cbn; split; intros H; try discriminate; reflexivity. Qed.
Lemma mirror_revert : forall k k', mirror k k' <-> match revert k with Some k2 => relk_eqb k2 k' | None => false end = true.
Proof. intros k k'. split; [intros []; reflexivity|]. destruct k; cbn; try discriminate; destruct k'; try discriminate; intros _; constructor. Qed.
Lemma on_equal_ok : forall E a r b a' r' b', exists x, py_eq E (on_cond a r b) (on_cond a' r' b') = Ok x.
Proof.
  intros. unfold py_eq, on_cond. cbn [pyeq textual_eq]. destruct (seqb a a'), (seqb b b'), (relk_eqb r r'), (seqb b a'), (seqb a b');
    cbn [rand ror]; eauto.
Qed.
Lemma on_equal : forall E a r b a' r' b', py_eq E (on_cond a r b) (on_cond a' r' b') = Ok true <-> same_on (a, r, b) (a', r', b').
Proof.
  intros. unfold py_eq, on_cond. cbn [pyeq textual_eq]. split.
  - intros H. destruct (rand (Ok (seqb a a')) (rand (Ok (seqb b b')) (Ok (relk_eqb r r')))) as [[]|] eqn:R; cbn [ror] in H.
    + apply rand_true in R. destruct R as [R1 R]. apply rand_true in R. destruct R as [R2 R3].
      injection R1 as R1. injection R2 as R2. injection R3 as R3. apply seqb_eq in R1, R2. apply relk_eqb_eq in R3. subst. constructor.
    + apply rand_true in H. destruct H as [R1 H]. apply rand_true in H. destruct H as [R2 R3].
      injection R1 as R1. injection R2 as R2. injection R3 as R3. apply seqb_eq in R1, R2. apply mirror_revert in R3. subst. constructor. exact R3.
    + discriminate.
  - intros H. inversion H; subst.
    + rewrite !seqb_refl, (proj2 (relk_eqb_eq r' r') eq_refl). reflexivity.
    + rewrite !seqb_refl. cbn [rand]. rewrite (proj1 (mirror_revert _ _)) by assumption.
      destruct (seqb b' a'), (seqb a' b'), (relk_eqb r r'); reflexivity.
Qed.
Lemma mirror_sym : forall r r', mirror r r' -> mirror r' r.
Proof. intros r r' []; constructor. Qed.
Lemma mirror_mirror : forall r r' r'', mirror r r' -> mirror r' r'' -> r = r''.
Proof. intros r r' r'' [] M; inversion M; reflexivity. Qed.
Lemma same_on_sym : forall x y, same_on x y -> same_on y x.
Proof. intros x y []; constructor. apply mirror_sym. assumption. Qed.
Lemma same_on_trans : forall x y z, same_on x y -> same_on y z -> same_on x z.
Proof.
  intros x y z H G. inversion H; subst; [exact G|]. inversion G; subst; [exact H|].
  match goal with A : mirror r r', B : mirror r' ?q |- _ => rewrite <- (mirror_mirror r r' q A B) end. constructor.
Qed.
Lemma on_equivalence : forall E,
  (forall a r b, py_eq E (on_cond a r b) (on_cond a r b) = Ok true) /\
  (forall a r b a' r' b', py_eq E (on_cond a r b) (on_cond a' r' b') = py_eq E (on_cond a' r' b') (on_cond a r b)) /\
  (forall a r b a' r' b' a'' r'' b'', py_eq E (on_cond a r b) (on_cond a' r' b') = Ok true ->
     py_eq E (on_cond a' r' b') (on_cond a'' r'' b'') = Ok true -> py_eq E (on_cond a r b) (on_cond a'' r'' b'') = Ok true).
Proof.
  intros E. split; [|split].
  - intros. apply on_equal. constructor.
  - intros. destruct (on_equal_ok E a r b a' r' b') as [x X], (on_equal_ok E a' r' b' a r b) as [y Y]. rewrite X, Y. f_equal.
    destruct x.
    + apply on_equal in X. apply same_on_sym in X. apply (on_equal E) in X. congruence.
    + destruct y; [|reflexivity]. apply on_equal in Y. apply same_on_sym in Y. apply (on_equal E) in Y. congruence.
  - intros a r b a' r' b' a'' r'' b'' H G. apply on_equal in H, G. apply on_equal. exact (same_on_trans _ _ _ H G).
Qed.

(** A decided equality that is an equivalence on the elements satisfying [P]. *)
Definition equiv_on {A} (P : A -> Prop) (f : A -> A -> res bool) : Prop :=
  (forall a b, P a -> P b -> exists x, f a b = Ok x) /\
  (forall a, P a -> f a a = Ok true) /\
  (forall a b, P a -> P b -> f a b = f b a) /\
  (forall a b c, P a -> P b -> P c -> f a b = Ok true -> f b c = Ok true -> f a c = Ok true).
Lemma equiv_list : forall A (P : A -> Prop) f, equiv_on P f -> equiv_on (Forall P) (list_eq f).
Proof.
  intros A P f [T [R [S C]]]. unfold list_eq.
  assert (K : forall l m, Forall P l -> Forall P m -> exists x, all2 f l m = Ok x).
  { induction l as [|a l IH]; intros [|b m] Fl Fm; cbn [all2]; eauto. inversion Fl; subst. inversion Fm; subst.
    destruct (T a b) as [[] ->]; auto; cbn [rand]; eauto. }
  split; [|split; [|split]].
  - intros l m Fl Fm. destruct (Nat.eqb _ _); eauto.
  - intros l F. rewrite Nat.eqb_refl. induction F as [|a l Pa F IH]; [reflexivity|]. cbn [all2]. rewrite (R a Pa). exact IH.
  - intros l m Fl Fm. rewrite Nat.eqb_sym. destruct (Nat.eqb _ _); [|reflexivity]. revert m Fm.
    induction Fl as [|a l Pa Fl IH]; intros [|b m] Fm; cbn [all2]; try reflexivity. inversion Fm; subst.
    rewrite (S a b) by assumption. destruct (f b a) as [[]|]; cbn [rand]; auto.
  - intros l m n Fl Fm Fn H G. destruct (Nat.eqb (List.length l) (List.length m)) eqn:L1; [|discriminate].
    destruct (Nat.eqb (List.length m) (List.length n)) eqn:L2; [|discriminate]. apply Nat.eqb_eq in L1, L2.
    rewrite L1, L2, Nat.eqb_refl. revert m n Fm Fn L1 L2 H G.
    induction Fl as [|a l Pa Fl IH]; intros [|b m] [|c n] Fm Fn L1 L2 H G; cbn [all2] in *; try reflexivity; try discriminate.
    inversion Fm; subst; inversion Fn; subst. apply rand_true in H. apply rand_true in G. destruct H as [U1 U2], G as [V1 V2].
    rewrite (C a b c) by assumption. cbn [rand]. injection L1 as L1. injection L2 as L2. apply (IH m n); assumption.
Qed.
Lemma equiv_pull : forall A B (g : A -> B) P f, equiv_on P f -> equiv_on (fun a => P (g a)) (fun a b => f (g a) (g b)).
Proof. intros A B g P f [T [R [S C]]]. split; [|split; [|split]]; eauto. Qed.
Lemma equiv_and : forall A (P Q : A -> Prop) f g, equiv_on P f -> equiv_on Q g ->
  equiv_on (fun a => P a /\ Q a) (fun a b => both (f a b) (g a b)).
Proof.
  intros A P Q f g [T [R [S C]]] [T' [R' [S' C']]]. split; [|split; [|split]].
  - intros a b [Pa Qa] [Pb Qb]. destruct (T a b) as [[] ->]; auto; cbn [both]; eauto.
  - intros a [Pa Qa]. rewrite R by assumption. cbn [both]. auto.
  - intros a b [Pa Qa] [Pb Qb]. rewrite (S a b), (S' a b) by assumption. reflexivity.
  - intros a b c [Pa Qa] [Pb Qb] [Pc Qc]. destruct (f a b) as [[]|] eqn:F; try discriminate. cbn [both]. intros G.
    destruct (f b c) as [[]|] eqn:F'; try discriminate. cbn [both]. intros G'. rewrite (C a b c) by assumption. cbn [both].
    apply (C' a b c); assumption.
Qed.
Lemma equiv_weaken : forall A (P Q : A -> Prop) f, (forall a, Q a -> P a) -> equiv_on P f -> equiv_on Q f.
Proof. intros A P Q f H [T [R [S C]]]. split; [|split; [|split]]; intros; eauto. Qed.
Lemma equiv_names : forall E, equiv_on (fun v => v = VNone \/ exists s, v = VStr s) (py_eq E).
Proof.
  intros E. unfold py_eq. split; [|split; [|split]].
  - intros a b [->|[s ->]] [->|[t ->]]; cbn; eauto.
  - intros a [->|[s ->]]; cbn; [reflexivity|]. now rewrite seqb_refl.
  - intros a b [->|[s ->]] [->|[t ->]]; cbn; try reflexivity. f_equal. destruct (seqb s t) eqn:Q, (seqb t s) eqn:Q'; try reflexivity.
    + apply seqb_eq in Q. subst. now rewrite seqb_refl in Q'.
    + apply seqb_eq in Q'. subst. now rewrite seqb_refl in Q.
  - intros a b c [->|[s ->]] [->|[t ->]] [->|[u ->]]; cbn; try discriminate; auto.
    intros H G. injection H as H. injection G as G. apply seqb_eq in H, G. subst. now rewrite seqb_refl.
Qed.
Lemma equiv_on_conds : forall E, equiv_on (fun p => exists a r b, p = on_cond a r b) (py_eq E).
Proof.
  intros E. destruct (on_equivalence E) as [R [S C]]. split; [|split; [|split]].
  - intros p q [a [r [b ->]]] [a' [r' [b' ->]]]. apply on_equal_ok.
  - intros p [a [r [b ->]]]. apply R.
  - intros p q [a [r [b ->]]] [a' [r' [b' ->]]]. apply S.
  - intros p q w [a [r [b ->]]] [a' [r' [b' ->]]] [a'' [r'' [b'' ->]]]. apply C.
Qed.
Lemma joins_equivalence : forall E, equiv_on column_join (join_equal E).
Proof.
  intros E. unfold join_equal.
  pose proof (equiv_pull _ _ (fun j : join val => j_name j) _ _ (equiv_names E)) as N.
  pose proof (equiv_pull _ _ (fun j : join val => j_alias j) _ _ (equiv_names E)) as A.
  pose proof (equiv_pull _ _ (fun j : join val => j_ons j) _ _ (equiv_list _ _ _ (equiv_on_conds E))) as O.
  pose proof (equiv_and _ _ _ _ _ (equiv_and _ _ _ _ _ N A) O) as X. cbv beta in X.
  revert X. apply equiv_weaken. intros j [Hn [Ha Ho]]. auto.
Qed.

(** ** C51: reflexivity *)
Lemma list_refl : forall A (f : A -> A -> res bool) l, (forall x, In x l -> f x x = Ok true) -> list_eq f l l = Ok true.
Proof.
  intros A f l H. unfold list_eq. rewrite Nat.eqb_refl. induction l as [|a l IH]; [reflexivity|]. cbn [all2].
  rewrite (H a) by now left. cbn [rand]. apply IH. intros x I. apply H. now right.
Qed.
Lemma rand_tt : forall x y, x = Ok true -> y = Ok true -> rand x y = Ok true.
Proof. intros x y -> ->. reflexivity. Qed.
Section Refl.
  Variables (f : val -> val -> res bool).
  Lemma pair_refl : forall p, (forall x, In x (pair_vals p) -> f x x = Ok true) -> pair_eq f p p = Ok true.
  Proof. intros [a b] H. cbn [pair_eq]. apply rand_tt; apply H; cbn; auto. Qed.
  Lemma ord_refl : forall (p : val * sortd), f (fst p) (fst p) = Ok true -> ord_eq f p p = Ok true.
  Proof. intros [a []] H; cbn [ord_eq]; apply rand_tt; auto. Qed.
  Lemma join_refl : forall p, (forall x, In x (join_vals p) -> f x x = Ok true) -> join_eq f p p = Ok true.
  Proof.
    intros [t n a o] H. cbn [join_eq]. unfold join_vals in H. cbn [j_name j_alias j_ons] in H. apply rand_tt; [destruct t; reflexivity|]. apply rand_tt; [apply rand_tt; apply H; cbn; auto|].
    apply list_refl. intros x I. apply H. cbn. auto.
  Qed.
  Lemma table_refl : forall p, (forall x, In x (table_vals p) -> f x x = Ok true) -> table_eq f p p = Ok true.
  Proof.
    intros [n a js] H. cbn [table_eq]. unfold table_vals in H. cbn [tb_name tb_alias tb_joins] in H. apply rand_tt; [apply H; cbn; auto|].
    apply rand_tt; [apply H; cbn; auto|]. apply list_refl. intros j I. apply join_refl. intros x J. apply H. right. right. apply in_flat_map. eauto.
  Qed.
  Lemma opt_refl : forall o : option val, (forall x, In x (opt_vals o) -> f x x = Ok true) -> opt_eq f o o = Ok true.
  Proof. intros [x|] H; cbn [opt_eq]; [apply H; cbn; auto|reflexivity]. Qed.
  Lemma out_refl : forall p, (forall x, In x (out_vals p) -> f x x = Ok true) -> out_eq f p p = Ok true.
  Proof.
    intros [a b c d] H. unfold out_vals in H. cbn [o_file o_fields o_lines o_encl] in H. cbn [out_eq].
    repeat apply rand_tt; apply opt_refl; intros x I; apply H; rewrite !in_app_iff; auto.
  Qed.
  Lemma map_fst_refl : forall l : list (val * sortd), (forall x, In x (map fst l) -> f x x = Ok true) -> list_eq (ord_eq f) l l = Ok true.
  Proof. intros l H. apply list_refl. intros p I. apply ord_refl. apply H. now apply in_map. Qed.
  Lemma flat_refl : forall A (g : A -> list val) (eq : A -> A -> res bool) l,
    (forall p, (forall x, In x (g p) -> f x x = Ok true) -> eq p p = Ok true) ->
    (forall x, In x (flat_map g l) -> f x x = Ok true) -> list_eq eq l l = Ok true.
  Proof. intros A g eq l H F. apply list_refl. intros p I. apply H. intros x J. apply F. apply in_flat_map. eauto. Qed.
End Refl.
Lemma bool_refl : forall b, Ok (Bool.eqb b b) = Ok true.
Proof. intros []; reflexivity. Qed.
Lemma selopts_refl : forall o, Ok (selopts_eqb o o) = Ok true.
Proof. intros [[] [] [] [] [] [] [] []]; reflexivity. Qed.
Lemma limits_refl : forall o, Ok (limits_eqb o o) = Ok true.
Proof. intros [[a|] [b|]]; unfold limits_eqb; cbn; rewrite ?Z.eqb_refl; reflexivity. Qed.
Lemma num_refl : forall x, x <> NNan -> num_eq x x = true.
Proof.
  intros [s n d|s|] H; cbn [num_eq]; [|destruct s; reflexivity|destruct H; reflexivity].
  rewrite N.eqb_refl. destruct s; cbn [Bool.eqb]; now rewrite orb_true_r.
Qed.
Lemma comparable_refl : forall E v, comparable E v -> py_eq E v v = Ok true.
Proof.
  intros E v. unfold py_eq. induction v as [v IH] using val_ind_children. intros C.
  destruct C as [v t T X|v T O C].
  - assert (S : is_sql v = true) by (destruct v; try discriminate; reflexivity).
    destruct v; try discriminate; cbn [pyeq textual_eq is_sql]; rewrite X; cbn [bind]; now rewrite seqb_refl.
  - assert (H : forall x, In x (children v) -> pyeq (text E) x x = Ok true) by (intros x I; apply IH; auto).
    destruct v as [|b|z|x|x|s|b|d|d t|k l|l|i|s|w|w|k w|k c r w|c w|ps|o a b|ps|w|k d w|cs|cs os sp|w ty|q|t a b|q|q|q];
      cbn [textual_eq] in T; try discriminate; cbn [pyeq textual_eq].
    + reflexivity.
    + destruct b; reflexivity.
    + cbn [as_num]. rewrite num_refl by discriminate. reflexivity.
    + cbn [as_num]. rewrite num_refl; [reflexivity|]. intros ->. exact O.
    + cbn [as_num]. rewrite num_refl; [reflexivity|]. intros ->. exact O.
    + now rewrite seqb_refl.
    + now rewrite seqb_refl.
    + unfold date_eqb. now rewrite !N.eqb_refl.
    + unfold date_eqb, time_eqb. now rewrite !N.eqb_refl.
    + cbn [not_odd] in O. destruct O as [<-|[<-|[<-|[]]]]; cbn [seqk_eqb]; apply list_refl; exact H.
    + destruct O.
    + now rewrite N.eqb_refl.
    + apply rand_tt; [now rewrite (proj2 (relk_eqb_eq k k) eq_refl)|]. apply H. now left.
    + destruct k.
      * apply rand_tt; [apply H; cbn; auto|]. apply rand_tt; [apply H; cbn; auto|]. now rewrite (proj2 (relk_eqb_eq r r) eq_refl).
      * rewrite (rand_tt (pyeq (text E) c c)); [reflexivity|apply H; cbn; auto|]. apply rand_tt; [apply H; cbn; auto|]. now rewrite (proj2 (relk_eqb_eq r r) eq_refl).
    + apply rand_tt; apply H; cbn; auto.
    + apply list_refl. exact H.
    + destruct q as [op c ta w g h o l out fu]. cbn [children] in H. unfold sel_vals in H. cbn [s_cols s_tabs s_where s_group s_having s_order s_out] in H.
      cbn [sel_eq]. apply rand_tt; [apply (flat_refl _ _ _ _ _ (pair_refl _)); intros x I; apply H; rewrite !in_app_iff; auto|].
      apply rand_tt; [apply map_fst_refl; intros x I; apply H; rewrite !in_app_iff; auto 10|].
      apply rand_tt; [apply list_refl; intros x I; apply H; rewrite !in_app_iff; auto 10|].
      apply rand_tt; [apply out_refl; intros x I; apply H; rewrite !in_app_iff; auto 10|].
      apply rand_tt; [apply limits_refl|].
      apply rand_tt; [apply map_fst_refl; intros x I; apply H; rewrite !in_app_iff; auto 10|].
      apply rand_tt; [apply bool_refl|]. apply rand_tt; [apply selopts_refl|].
      apply rand_tt; [apply (flat_refl _ _ _ _ _ (table_refl _)); intros x I; apply H; rewrite !in_app_iff; auto|].
      apply list_refl; intros x I; apply H; rewrite !in_app_iff; auto 10.
    + apply rand_tt; [apply H; cbn; auto|]. apply rand_tt; [apply H; cbn; auto|]. destruct t; reflexivity.
    + destruct q as [rp ig ta rows dup cf upd]. cbn [children] in H. unfold ins_vals in H. cbn [i_tabs i_rows i_dup i_upd] in H. cbn [ins_eq].
      apply rand_tt; [apply bool_refl|]. apply rand_tt; [apply bool_refl|].
      apply rand_tt; [apply list_refl; intros x I; apply H; rewrite !in_app_iff; auto 10|].
      apply rand_tt; [apply list_refl; intros x I; apply H; rewrite !in_app_iff; auto 10|].
      apply rand_tt; [apply (flat_refl _ _ _ _ _ (table_refl _)); intros x I; apply H; rewrite !in_app_iff; auto|].
      apply list_refl. intros row I. apply list_refl. intros x J. apply H. rewrite !in_app_iff. right. left. apply in_concat. eauto.
    + destruct q as [ig ta va w al]. cbn [children] in H. unfold upd_vals in H. cbn [u_tabs u_vals u_where] in H. cbn [upd_eq].
      apply rand_tt; [apply (flat_refl _ _ _ _ _ (table_refl _)); intros x I; apply H; rewrite !in_app_iff; auto|].
      apply rand_tt; [apply bool_refl|].
      apply rand_tt; apply list_refl; intros x I; apply H; rewrite !in_app_iff; auto 10.
    + destruct q as [ig ta rf w al]. cbn [children] in H. unfold del_vals in H. cbn [d_tabs d_refs d_where] in H. cbn [del_eq].
      apply rand_tt; [apply bool_refl|].
      apply rand_tt; [apply (flat_refl _ _ _ _ _ (table_refl _)); intros x I; apply H; rewrite !in_app_iff; auto|].
      apply rand_tt; [apply (flat_refl _ _ _ _ _ (table_refl _)); intros x I; apply H; rewrite !in_app_iff; auto|].
      apply list_refl; intros x I; apply H; rewrite !in_app_iff; auto 10.
Qed.

(** ** C51: equal queries of exact data are the same *)
Section Same.
  Variable f : val -> val -> res bool.
  Definition on_ (l m : list val) : Prop := forall x y, In x l -> In y m -> f x y = Ok true -> x = y.
  Lemma list_same : forall A (eq : A -> A -> res bool) l m, (forall x y, In x l -> In y m -> eq x y = Ok true -> x = y) ->
    list_eq eq l m = Ok true -> l = m.
  Proof.
    intros A eq l m H. unfold list_eq. destruct (Nat.eqb _ _) eqn:L; [|discriminate]. apply Nat.eqb_eq in L. revert m H L.
    induction l as [|a l IH]; intros [|b m] H L Q; try discriminate; [reflexivity|]. cbn [all2] in Q. apply rand_true in Q. destruct Q as [Q1 Q2].
    f_equal; [apply H; [now left|now left|exact Q1]|]. apply IH; [|now injection L|exact Q2]. intros x y I J. apply H; now right.
  Qed.
  Lemma pair_same : forall p q, on_ (pair_vals p) (pair_vals q) -> pair_eq f p q = Ok true -> p = q.
  Proof. intros [a b] [c d] H Q. cbn [pair_eq] in Q. apply rand_true in Q. destruct Q. f_equal; apply H; cbn; auto. Qed.
  Lemma ord_same : forall p q : val * sortd, on_ [fst p] [fst q] -> ord_eq f p q = Ok true -> p = q.
  Proof.
    intros [a b] [c d] H Q. cbn [ord_eq] in Q. apply rand_true in Q. destruct Q as [Q R]. f_equal; [apply H; cbn; auto|].
    destruct b, d; try discriminate; reflexivity.
  Qed.
  Lemma join_same : forall p q, on_ (join_vals p) (join_vals q) -> join_eq f p q = Ok true -> p = q.
  Proof.
    intros [t n a o] [t' n' a' o'] H Q. unfold join_vals in H. cbn [j_name j_alias j_ons] in H. cbn [join_eq] in Q.
    apply rand_true in Q. destruct Q as [Q1 Q]. apply rand_true in Q. destruct Q as [Q Q4]. apply rand_true in Q. destruct Q as [Q2 Q3].
    f_equal; [destruct t, t'; try discriminate; reflexivity| | |]; [apply H; cbn; auto|apply H; cbn; auto|].
    revert Q4. apply list_same. intros x y I J. apply H; cbn; auto.
  Qed.
  Lemma table_same : forall p q, on_ (table_vals p) (table_vals q) -> table_eq f p q = Ok true -> p = q.
  Proof.
    intros [n a js] [n' a' js'] H Q. unfold table_vals in H. cbn [tb_name tb_alias tb_joins] in H. cbn [table_eq] in Q.
    apply rand_true in Q. destruct Q as [Q1 Q]. apply rand_true in Q. destruct Q as [Q2 Q3].
    f_equal; [apply H; cbn; auto|apply H; cbn; auto|]. revert Q3. apply list_same. intros x y I J. apply join_same.
    intros u v U V. apply H; right; right; apply in_flat_map; eauto.
  Qed.
  Lemma opt_same : forall p q : option val, on_ (opt_vals p) (opt_vals q) -> opt_eq f p q = Ok true -> p = q.
  Proof. intros [x|] [y|] H Q; cbn [opt_eq] in Q; try discriminate; [|reflexivity]. f_equal. apply H; cbn; auto. Qed.
  Lemma out_same : forall p q, on_ (out_vals p) (out_vals q) -> out_eq f p q = Ok true -> p = q.
  Proof.
    intros [a b c d] [a' b' c' d'] H Q. unfold out_vals in H. cbn [o_file o_fields o_lines o_encl] in H. cbn [out_eq] in Q.
    apply rand_true in Q. destruct Q as [Q1 Q]. apply rand_true in Q. destruct Q as [Q2 Q]. apply rand_true in Q. destruct Q as [Q3 Q4].
    f_equal; apply opt_same; try assumption; intros x y I J; apply H; rewrite !in_app_iff; auto.
  Qed.
  Lemma flat_same : forall A (g : A -> list val) (eq : A -> A -> res bool) l m,
    (forall p q, on_ (g p) (g q) -> eq p q = Ok true -> p = q) -> on_ (flat_map g l) (flat_map g m) -> list_eq eq l m = Ok true -> l = m.
  Proof. intros A g eq l m H F. apply list_same. intros p q I J. apply H. intros x y X Y. apply F; apply in_flat_map; eauto. Qed.
  Lemma ords_same : forall l m : list (val * sortd), on_ (map fst l) (map fst m) -> list_eq (ord_eq f) l m = Ok true -> l = m.
  Proof. intros l m H. apply list_same. intros p q I J. apply ord_same. intros x y [<-|[]] [<-|[]]. apply H; now apply in_map. Qed.
  Lemma selopts_same : forall a b, Ok (selopts_eqb a b) = Ok true -> a = b.
  Proof.
    intros [c d s1 s2 s3 s4 s5 s6] [c' d' s1' s2' s3' s4' s5' s6'] H. injection H as H. unfold selopts_eqb in H. cbn in H.
    repeat (apply andb_prop in H; destruct H as [H ?]). repeat match goal with B : Bool.eqb _ _ = true |- _ => apply eqb_prop in B end. subst.
    f_equal; [destruct c, c'|destruct d, d']; try discriminate; reflexivity.
  Qed.
  Lemma limits_same : forall a b, Ok (limits_eqb a b) = Ok true -> a = b.
  Proof.
    intros [a b] [c d] H. injection H as H. unfold limits_eqb in H. cbn in H. apply andb_prop in H. destruct H as [H1 H2].
    f_equal; [destruct a, c|destruct b, d]; try discriminate; try reflexivity; cbn in *; f_equal; lia.
  Qed.
  Lemma bool_same : forall a b, Ok (Bool.eqb a b) = Ok true -> a = b.
  Proof. intros [] []; try discriminate; reflexivity. Qed.
  Lemma sel_same : forall p q, on_ (sel_vals p) (sel_vals q) -> sel_eq f p q = Ok true -> p = q.
  Proof.
    intros [op c t w g h o l out fu] [op' c' t' w' g' h' o' l' out' fu'] H Q. unfold sel_vals in H.
    cbn [s_cols s_tabs s_where s_group s_having s_order s_out] in H. cbn [sel_eq] in Q.
    assert (G : forall a b, (forall x, In x a -> In x (flat_map pair_vals c ++ flat_map table_vals t ++ w ++ map fst g ++ h ++ map fst o ++ out_vals out)) ->
                 (forall x, In x b -> In x (flat_map pair_vals c' ++ flat_map table_vals t' ++ w' ++ map fst g' ++ h' ++ map fst o' ++ out_vals out')) -> on_ a b).
    { intros a b A B x y I J. apply H; auto. }
    apply rand_true in Q. destruct Q as [Q1 Q]. apply rand_true in Q. destruct Q as [Q2 Q]. apply rand_true in Q. destruct Q as [Q3 Q].
    apply rand_true in Q. destruct Q as [Q4 Q]. apply rand_true in Q. destruct Q as [Q5 Q]. apply rand_true in Q. destruct Q as [Q6 Q].
    apply rand_true in Q. destruct Q as [Q7 Q]. apply rand_true in Q. destruct Q as [Q8 Q]. apply rand_true in Q. destruct Q as [Q9 Q10].
    apply selopts_same in Q8. apply limits_same in Q5. apply bool_same in Q7.
    apply (flat_same _ _ _ _ _ pair_same) in Q1; [|apply G; intros x I; rewrite !in_app_iff; auto 10].
    apply (flat_same _ _ _ _ _ table_same) in Q9; [|apply G; intros x I; rewrite !in_app_iff; auto 10].
    apply ords_same in Q2; [|apply G; intros x I; rewrite !in_app_iff; auto 10].
    apply ords_same in Q6; [|apply G; intros x I; rewrite !in_app_iff; auto 10].
    apply out_same in Q4; [|apply G; intros x I; rewrite !in_app_iff; auto 10].
    apply list_same in Q3; [|apply G; intros x I; rewrite !in_app_iff; auto 10].
    apply list_same in Q10; [|apply G; intros x I; rewrite !in_app_iff; auto 10]. subst. reflexivity.
  Qed.
  Lemma ins_same : forall p q, on_ (ins_vals p) (ins_vals q) -> i_conflict p = i_conflict q -> ins_eq f p q = Ok true -> p = q.
  Proof.
    intros [rp ig t rows dup cf upd] [rp' ig' t' rows' dup' cf' upd'] H C Q. unfold ins_vals in H. cbn [i_tabs i_rows i_dup i_upd i_conflict] in H, C. cbn [ins_eq] in Q.
    apply rand_true in Q. destruct Q as [Q1 Q]. apply rand_true in Q. destruct Q as [Q2 Q]. apply rand_true in Q. destruct Q as [Q3 Q].
    apply rand_true in Q. destruct Q as [Q4 Q]. apply rand_true in Q. destruct Q as [Q5 Q6]. apply bool_same in Q1, Q2.
    apply list_same in Q3; [|intros x y I J; apply H; rewrite !in_app_iff; auto 10].
    apply list_same in Q4; [|intros x y I J; apply H; rewrite !in_app_iff; auto 10].
    apply (flat_same _ _ _ _ _ table_same) in Q5; [|intros x y I J; apply H; rewrite !in_app_iff; auto 10].
    apply list_same in Q6; [subst; reflexivity|]. intros a b I J. apply list_same. intros x y X Y. apply H; rewrite !in_app_iff; right; left; apply in_concat; eauto.
  Qed.
  Lemma upd_same : forall p q, on_ (upd_vals p) (upd_vals q) -> u_allow p = u_allow q -> upd_eq f p q = Ok true -> p = q.
  Proof.
    intros [ig t v w al] [ig' t' v' w' al'] H C Q. unfold upd_vals in H. cbn [u_tabs u_vals u_where u_allow] in H, C. cbn [upd_eq] in Q.
    apply rand_true in Q. destruct Q as [Q1 Q]. apply rand_true in Q. destruct Q as [Q2 Q]. apply rand_true in Q. destruct Q as [Q3 Q4].
    apply bool_same in Q2. apply (flat_same _ _ _ _ _ table_same) in Q1; [|intros x y I J; apply H; rewrite !in_app_iff; auto 10].
    apply list_same in Q3; [|intros x y I J; apply H; rewrite !in_app_iff; auto 10].
    apply list_same in Q4; [|intros x y I J; apply H; rewrite !in_app_iff; auto 10]. subst. reflexivity.
  Qed.
  Lemma del_same : forall p q, on_ (del_vals p) (del_vals q) -> d_allow p = d_allow q -> del_eq f p q = Ok true -> p = q.
  Proof.
    intros [ig t v w al] [ig' t' v' w' al'] H C Q. unfold del_vals in H. cbn [d_tabs d_refs d_where d_allow] in H, C. cbn [del_eq] in Q.
    apply rand_true in Q. destruct Q as [Q1 Q]. apply rand_true in Q. destruct Q as [Q2 Q]. apply rand_true in Q. destruct Q as [Q3 Q4].
    apply bool_same in Q1. apply (flat_same _ _ _ _ _ table_same) in Q2; [|intros x y I J; apply H; rewrite !in_app_iff; auto 10].
    apply (flat_same _ _ _ _ _ table_same) in Q3; [|intros x y I J; apply H; rewrite !in_app_iff; auto 10].
    apply list_same in Q4; [|intros x y I J; apply H; rewrite !in_app_iff; auto 10]. subst. reflexivity.
  Qed.
End Same.
Lemma exact_child : forall v x, exact v -> In x (children v) -> exact x.
Proof. intros v x [w K C] I. auto. Qed.
Lemma exact_same : forall r a b, exact a -> exact b -> pyeq r a b = Ok true -> a = b.
Proof.
  intros r a. induction a as [a IH] using val_ind_children. intros b Ea Eb Q.
  assert (H : forall x y, In x (children a) -> In y (children b) -> pyeq r x y = Ok true -> x = y).
  { intros x y I J. apply IH; [exact I|exact (exact_child _ _ Ea I)|exact (exact_child _ _ Eb J)]. }
  assert (Ka : exact_kind a) by (destruct Ea; assumption). assert (Kb : exact_kind b) by (destruct Eb; assumption). clear IH Ea Eb.
  destruct a as [|u|z|x|x|s|u|d|d t|k l|l|i|s|w|w|k w|k c rr w|c w|ps|o a1 a2|ps|w|k d w|cs|cs os sp|w ty|q|t a1 a2|q|q|q];
    cbn [exact_kind textual_eq] in Ka; try (destruct Ka; fail); try discriminate; cbn [pyeq textual_eq] in Q.
  - destruct b; try discriminate. reflexivity.
  - destruct b; cbn [exact_kind] in Kb; try contradiction; try discriminate. cbn [as_num] in Q. injection Q as Q. unfold num_eq in Q.
    apply andb_prop in Q. destruct Q as [Q1 Q2]. apply N.eqb_eq in Q1. apply orb_prop in Q2. f_equal.
    destruct Q2 as [Q2|Q2]; [apply N.eqb_eq in Q2; lia|]. apply Bool.eqb_prop in Q2.
    destruct (z <? 0)%Z eqn:A, (z0 <? 0)%Z eqn:B; try discriminate; lia.
  - destruct b; cbn [exact_kind textual_eq] in Kb, Q; try contradiction; try discriminate. injection Q as Q. apply seqb_eq in Q. congruence.
  - destruct b; try discriminate. injection Q as Q. apply seqb_eq in Q. congruence.
  - destruct b; try discriminate. injection Q as Q. apply date_eqb_eq in Q. congruence.
  - destruct b; try discriminate. injection Q as Q. apply andb_prop in Q. destruct Q as [Q1 Q2]. apply date_eqb_eq in Q1. apply time_eqb_eq in Q2. congruence.
  - destruct b as [| | | | | | | | |k' l'| | | | | | | | | | | | | | | | | | | | |]; try discriminate. cbn [exact_kind] in Kb. cbn [children] in H.
    assert (K : k = k' /\ list_eq (pyeq r) l l' = Ok true).
    { destruct Ka as [<-|[<-|[<-|[]]]]; destruct Kb as [<-|[<-|[<-|[]]]]; cbn [seqk_eqb is_setk andb] in Q; try discriminate; auto. }
    destruct K as [-> K]. f_equal. revert K. apply list_same. exact H.
  - destruct b; try discriminate. injection Q as Q. apply N.eqb_eq in Q. congruence.
  - destruct b; try discriminate. apply rand_true in Q. destruct Q as [Q1 Q2]. injection Q1 as Q1. apply relk_eqb_eq in Q1. subst. f_equal. apply H; cbn; auto.
  - destruct k; [|destruct Ka]. destruct b as [| | | | | | | | | | | | | | | |k' c' r' w'| | | | | | | | | | | | | |]; try discriminate. destruct k'; [|discriminate].
    apply rand_true in Q. destruct Q as [Q1 Q]. apply rand_true in Q. destruct Q as [Q2 Q3]. injection Q3 as Q3. apply relk_eqb_eq in Q3. subst.
    f_equal; apply H; cbn; auto.
  - destruct b; try discriminate. apply rand_true in Q. destruct Q as [Q1 Q2]. f_equal; apply H; cbn; auto.
  - destruct b; try discriminate. f_equal. revert Q. apply list_same. exact H.
  - destruct b; try discriminate. f_equal. revert Q. apply sel_same. exact H.
  - destruct b; try discriminate. apply rand_true in Q. destruct Q as [Q1 Q]. apply rand_true in Q. destruct Q as [Q2 Q3].
    f_equal; [destruct t, t0; try discriminate; reflexivity|apply H; cbn; auto|apply H; cbn; auto].
Qed.
Lemma exact_on : forall r l m, (forall x, In x l -> exact x) -> (forall x, In x m -> exact x) -> on_ (pyeq r) l m.
Proof. intros r l m A B x y I J. apply exact_same; auto. Qed.
Lemma equal_same_query : forall E : env,
  (forall p q, (forall x, In x (sel_vals p ++ sel_vals q) -> exact x) -> py_eq E (VSelect p) (VSelect q) = Ok true -> p = q) /\
  (forall p q, (forall x, In x (ins_vals p ++ ins_vals q) -> exact x) -> py_eq E (VInsert p) (VInsert q) = Ok true -> i_conflict p = i_conflict q -> p = q) /\
  (forall p q, (forall x, In x (upd_vals p ++ upd_vals q) -> exact x) -> py_eq E (VUpdate p) (VUpdate q) = Ok true -> u_allow p = u_allow q -> p = q) /\
  (forall p q, (forall x, In x (del_vals p ++ del_vals q) -> exact x) -> py_eq E (VDelete p) (VDelete q) = Ok true -> d_allow p = d_allow q -> p = q).
Proof.
  intros E. unfold py_eq. split; [|split; [|split]]; intros p q H Q; cbn [pyeq textual_eq] in Q; [|intros C..];
    [revert Q; apply sel_same|revert C Q; apply ins_same|revert C Q; apply upd_same|revert C Q; apply del_same];
    apply exact_on; intros x I; apply H; apply in_or_app; auto.
Qed.
