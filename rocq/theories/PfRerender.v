(** Proofs about renderings for different backends (C35). *)
From Coq Require Import Lia.
From Verif Require Import Base BaseFacts NumFmt Value Backend Eq Render RenderFacts ParseArgs Build Queries History Effects SpecEffects SpecClauses SpecBackends
  SpecHistory PfClauses PfEffects PfBackends SpecRerender.

Lemma Forall2_mono : forall A (R S : A -> A -> Prop) l m, (forall x y, In x l -> R x y -> S x y) -> Forall2 R l m -> Forall2 S l m.
Proof.
  intros A R S l m H F. induction F as [|x y l m X F IH]; constructor; [apply H; [now left|exact X]|].
  apply IH. intros; apply H; [now right|assumption].
Qed.
(** Minimising joins compared without texts. *)
Section Min.
  Context (r r' : val -> res str).
  Definition tlj' (j : join val) : Prop := forall x, In x (join_vals j) -> textless x.
  Lemma same_join_tl : forall i j, tlj' i -> tlj' j -> same_join r i j = same_join r' i j.
  Proof.
    intros [t n a o] [t' n' a' o'] Hi Hj. unfold same_join; cbn [j_name j_alias j_ons].
    assert (K : forall x y, In x (n :: a :: o) -> In y (n' :: a' :: o') -> pyeq r x y = pyeq r' x y).
    { intros x y Hx Hy. apply textless_pyeq; [apply Hi|apply Hj]; assumption. }
    rewrite (K n n'), (K a a') by (simpl; auto). rewrite (list_eq_ext (pyeq r) (pyeq r') o o'); [reflexivity|].
    intros x y Hx Hy. apply K; right; right; assumption.
  Qed.
  Definition tlg (g : jgroup) : Prop := forall j, In j (fst g :: snd g) -> tlj' j.
  Lemma group_add_tl : forall j gs, tlj' j -> Forall tlg gs -> group_add r j gs = group_add r' j gs /\
    forall gs', group_add r j gs = Ok gs' -> Forall tlg gs'.
  Proof.
    intros j gs Hj F. induction F as [|[h t] gs G F [IH1 IH2]]; cbn [group_add].
    - split; [reflexivity|]. intros gs' Q. injection Q as <-. constructor; [|constructor]. intros i [<-|[]]. exact Hj.
    - rewrite <- (same_join_tl h j) by (try exact Hj; apply G; now left).
      destruct (same_join r h j) as [[]|]; [| |split; [reflexivity|discriminate]].
      + split; [reflexivity|]. intros gs' Q. injection Q as <-. constructor; [|exact F].
        intros i Hi. cbn [fst snd] in Hi. destruct Hi as [<-|Hi]; [apply G; now left|]. apply in_app_iff in Hi.
        destruct Hi as [Hi|[<-|[]]]; [apply G; now right|exact Hj].
      + rewrite <- IH1. split; [reflexivity|]. intros gs' Q. destruct (group_add r j gs) as [gs1|]; [|discriminate].
        injection Q as <-. constructor; [exact G|]. now apply IH2.
  Qed.
  Lemma minimize_tl : forall js, (forall x, In x (flat_map join_vals js) -> textless x) -> minimize r js = minimize r' js.
  Proof.
    intros js H. unfold minimize. f_equal.
    assert (K : forall j, In j js -> tlj' j) by (intros j Hj x Hx; apply H; apply in_flat_map; eauto). clear H.
    assert (G : Forall tlg []) by constructor. revert G. generalize (@nil jgroup).
    induction js as [|j js IH]; intros gs G; [reflexivity|]. cbn [group_joins].
    destruct (group_add_tl j gs (K j (or_introl eq_refl)) G) as [A B]. rewrite <- A.
    destruct (group_add r j gs) as [gs1|]; [|reflexivity]. apply IH; [intros; apply K; now right|now apply B].
  Qed.
End Min.

(** A rendering for one backend is a rendering for any. *)
Section Move.
  Context (E F : env).
  Definition goes (l : list val) : Prop := forall x y, In x l -> touch E x y -> touch F x y.
  Lemma goes_app : forall l m, goes (l ++ m) -> goes l /\ goes m.
  Proof. intros l m H. split; intros x y Hx; apply H; rewrite in_app_iff; auto. Qed.
  Lemma goes_flat : forall A (h : A -> list val) l, goes (flat_map h l) -> forall x, In x l -> goes (h x).
  Proof. intros A h l H x Hx y z Hy. apply H. apply in_flat_map. eauto. Qed.
  Lemma go_list : forall l m, goes l -> Forall2 (touch E) l m -> Forall2 (touch F) l m.
  Proof. intros l m H. now apply Forall2_mono. Qed.
  Lemma go_pairs : forall l m, goes (flat_map pair_vals l) -> Forall2 (pair2 (touch E)) l m -> Forall2 (pair2 (touch F)) l m.
  Proof.
    intros l m H. apply Forall2_mono. intros [a b] q Hx [X Y]. pose proof (goes_flat _ _ _ H _ Hx) as K.
    split; apply K; simpl; auto.
  Qed.
  Lemma go_fst : forall B (l m : list (val * B)), goes (map fst l) -> Forall2 (fst2 (touch E)) l m -> Forall2 (fst2 (touch F)) l m.
  Proof. intros B l m H. apply Forall2_mono. intros [a b] q Hx [X Y]. split; [|exact Y]. apply H; [|exact X]. apply (in_map fst) in Hx. exact Hx. Qed.
  Lemma go_opt : forall a b, goes (opt_vals a) -> opt2 (touch E) a b -> opt2 (touch F) a b.
  Proof. intros a b H X. revert H. destruct X as [|x y X]; intros H; constructor. apply H; [now left|exact X]. Qed.
  Lemma go_out : forall a b, goes (out_vals a) -> out2 (touch E) a b -> out2 (touch F) a b.
  Proof.
    intros a b H [X1 [X2 [X3 X4]]]. unfold out_vals in H.
    do 3 (apply goes_app in H; let K := fresh in destruct H as [K H]). repeat split; now apply go_opt.
  Qed.
  Lemma go_rows : forall l m, goes (List.concat l) -> Forall2 (Forall2 (touch E)) l m -> Forall2 (Forall2 (touch F)) l m.
  Proof. intros l m H. apply Forall2_mono. intros x y Hx. apply go_list. intros a b Ha. apply H. apply in_concat. eauto. Qed.
  Definition plain_tabs (l : list (table val)) : Prop := forall t x, In t l -> In x (flat_map join_vals (tb_joins t)) -> textless x /\ simple x.
  Lemma go_min : forall js ms, (forall x, In x (flat_map join_vals js) -> textless x) -> minimised E js ms -> minimised F js ms.
  Proof. intros js ms H [->|M]; [now left|right]. now rewrite <- (minimize_tl (text E) (text F)). Qed.
  Lemma go_tables : forall l m, goes (flat_map table_vals l) -> plain_tabs l ->
    Forall2 (table2 E (touch E)) l m -> Forall2 (table2 F (touch F)) l m.
  Proof.
    intros l m H P. apply Forall2_mono. intros [n a js] u Hx [X [Y [j1 [j2 [M1 [G M2]]]]]].
    pose proof (goes_flat _ _ _ H _ Hx) as K. cbn [tb_name tb_alias tb_joins] in *.
    assert (P1 : forall x, In x (flat_map join_vals js) -> textless x /\ simple x) by (intros x; apply (P _ x Hx)).
    assert (P2 : forall x, In x (flat_map join_vals j1) -> textless x /\ simple x) by (intros x I; apply P1; eapply min_vals; eauto).
    assert (j2 = j1) as -> by (apply joins2_same in G; [exact G|]; intros x y I; apply simple_same; now apply P2).
    split; [apply K; [left; reflexivity|exact X]|]. split; [apply K; [right; left; reflexivity|exact Y]|].
    cbn [tb_joins]. exists j1, j1. split; [apply go_min; [apply P1|exact M1]|]. split; [|apply go_min; [apply P2|exact M2]].
    clear. induction j1 as [|j l IH]; constructor; [|exact IH]. repeat split; try apply t_same.
    generalize (j_ons j). intros o. induction o; constructor; [apply t_same|assumption].
  Qed.
End Move.
Lemma tables_app : forall l m, plain_tabs (l ++ m) -> plain_tabs l /\ plain_tabs m.
Proof. intros l m H. split; intros t x Ht; apply H; rewrite in_app_iff; auto. Qed.
Lemma touch_moves : forall E F v w, plainly_joined v -> steadily_joined v -> touch E v w -> touch F v w.
Proof.
  intros E F v. induction v as [v IH] using val_ind_children. intros w P S T.
  assert (G : goes E F (children v)).
  { intros x y Hx. apply IH; [exact Hx|eapply pj_kids; eauto|]. destruct S as [_ S]. now apply S. }
  assert (PT : plain_tabs (tables_of v)).
  { intros t x Ht Hx. destruct S as [S _], P as [_ P _]. split; [eapply S; eauto|eapply P; eauto]. }
  inversion T; subst; cbn [children tables_of] in *;
    try (constructor; first [apply G; [simpl; auto|assumption]|eapply go_list; eassumption|eapply go_pairs; eassumption]; fail).
  - apply goes_app in G. destruct G as [G1 G]. apply goes_app in G. destruct G as [G2 G3].
    constructor; [eapply go_pairs; eassumption|eapply go_fst; eassumption|]. apply G3; [now left|assumption].
  - unfold sel_vals in G. do 6 (apply goes_app in G; let K := fresh "K" in destruct G as [K G]).
    match goal with X : sel2 _ _ _ _ |- _ => destruct X as [X0 [X1 [X2 [X3 [X4 [X5 [X6 [X8 [X7 X9]]]]]]]]] end.
    constructor. unfold sel2. split; [exact X0|]. split; [eapply go_pairs; eassumption|]. split; [eapply go_tables; eassumption|].
    split; [eapply go_list; eassumption|]. split; [eapply go_fst; eassumption|]. split; [eapply go_list; eassumption|].
    split; [eapply go_fst; eassumption|]. split; [exact X8|]. split; [eapply go_out; eassumption|exact X9].
  - unfold ins_vals in G. do 3 (apply goes_app in G; let K := fresh "K" in destruct G as [K G]).
    match goal with X : ins2 _ _ _ _ |- _ => destruct X as [X0 [X1 [X2 [X3 [X4 [X5 X6]]]]]] end.
    constructor. unfold ins2. split; [exact X0|]. split; [exact X1|]. split; [eapply go_tables; eassumption|].
    split; [eapply go_rows; eassumption|]. split; [eapply go_list; eassumption|]. split; [exact X5|eapply go_list; eassumption].
  - unfold upd_vals in G. do 2 (apply goes_app in G; let K := fresh "K" in destruct G as [K G]).
    match goal with X : upd2 _ _ _ _ |- _ => destruct X as [X0 [X1 [X2 [X3 X4]]]] end.
    constructor. unfold upd2. split; [exact X0|]. split; [eapply go_tables; eassumption|]. split; [eapply go_list; eassumption|].
    split; [eapply go_list; eassumption|exact X4].
  - unfold del_vals in G. do 2 (apply goes_app in G; let K := fresh "K" in destruct G as [K G]). apply tables_app in PT. destruct PT as [PT1 PT2].
    match goal with X : del2 _ _ _ _ |- _ => destruct X as [X0 [X1 [X2 [X3 X4]]]] end.
    constructor. unfold del2. split; [exact X0|]. split; [eapply go_tables; eassumption|]. split; [eapply go_tables; eassumption|].
    split; [eapply go_list; eassumption|exact X4].
Qed.
Lemma touch_steady : forall E v w, plainly_joined v -> steadily_joined v -> touch E v w -> steadily_joined w.
Proof.
  intros E v. induction v as [v IH] using val_ind_children. intros w P S T. constructor.
  - intros u x Hu Hx. destruct (touch_tabs _ _ _ _ T Hu) as [t [Ht [X| ->]]]; [|destruct S as [S _]; eapply S; eauto].
    destruct (fk_joins _ _ _ _ X x Hx) as [x0 [Y Z]]. destruct P as [_ P _]. assert (SI : simple x0) by (eapply P; eauto).
    rewrite (simple_same _ _ _ SI Z). destruct S as [S _]. eapply S; eauto.
  - intros y Hy. destruct (touch_kids _ _ _ T y Hy) as [x [X Y]]. apply (IH x X); [eapply pj_kids; eauto| |exact Y].
    destruct S as [_ S]. now apply S.
Qed.
Lemma shown_text : forall E b v w, plainly_joined v -> steadily_joined v -> shown_anywhere E v w ->
  text (with_be E b) w = text (with_be E b) v.
Proof.
  intros E b v w P S T. induction T as [v|c v w x X T IH]; [reflexivity|].
  rewrite IH by (first [eapply touch_pj; eassumption|eapply touch_steady; eassumption]).
  apply touch_text; [exact P|]. eapply touch_moves; eassumption.
Qed.
