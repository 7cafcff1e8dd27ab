(** Lemmas about the effect of rendering. *)
From Coq Require Import Lia.
From Verif Require Import Base NumFmt Value Backend Eq Render RenderFacts ParseArgs Build Queries Effects SpecEffects PfClauses PfFunctions SpecFunctions SpecClauses.
Open Scope nat_scope.

(** ** Minimising is idempotent *)
Lemma min_one : forall r j, minimize r [j] = Ok [j].
Proof. reflexivity. Qed.
Lemma min_short : forall r js ms, List.length js <= 1 -> minimize r js = Ok ms -> ms = js.
Proof.
  intros r [|j [|k js]] ms L H; simpl in L; try lia; injection H as <-; reflexivity.
Qed.
Definition same_but_type (a b : join val) : Prop := j_name a = j_name b /\ j_alias a = j_alias b /\ j_ons a = j_ons b.
Lemma join_equal_cong : forall E a a' b b', same_but_type a a' -> same_but_type b b' -> join_equal E a b = join_equal E a' b'.
Proof. intros E [t n a o] [t' n' a' o'] [u m b p] [u' m' b' p'] [A [B C]] [A' [B' C']]. simpl in *. subst. reflexivity. Qed.
Lemma parted_in : forall A (f : A -> res bool) l a b, parted f l a b ->
  (forall x, In x a -> f x = Ok true) /\ (forall x, In x b -> f x = Ok false).
Proof.
  intros A f l a b P. induction P as [|x l a b H P [I1 I2]|x l a b H P [I1 I2]]; split; simpl; try (intros ? []; fail); auto.
  - intros y [<-|Hy]; auto.
  - intros y [<-|Hy]; auto.
Qed.
Lemma parted_sub : forall A (f : A -> res bool) l a b, parted f l a b -> forall x, In x a \/ In x b -> In x l.
Proof.
  intros A f l a b P. induction P; simpl; intros y [H'|H']; try contradiction;
    try (destruct H' as [<-|H']; [now left|]); right; auto.
Qed.
Lemma parted_split : forall A (f : A -> res bool) a b, (forall x, In x a -> f x = Ok true) -> (forall x, In x b -> f x = Ok false) ->
  parted f (a ++ b) a b.
Proof.
  intros A f a b. induction a as [|x a IH]; simpl; intros H1 H2.
  - induction b as [|y b IH]; [constructor|]. apply parted_no; [apply H2; now left|]. apply IH. intros; apply H2; now right.
  - apply parted_yes; [apply H1; now left|]. apply IH; [|exact H2]. intros; apply H1; now right.
Qed.
Lemma grouped_members : forall E l gs, grouped E l gs -> forall g x, In g gs -> In x (fst g :: snd g) -> In x l.
Proof.
  intros E l gs G. induction G as [|j l tw ot gs P G IH]; [intros ? ? []|].
  intros g x [<-|Hg] Hx.
  - destruct Hx as [<-|Hx]; [now left|]. right. eapply parted_sub; [exact P|left; exact Hx].
  - right. eapply parted_sub; [exact P|right; eapply IH; eauto].
Qed.
Lemma settle_origin : forall h t x, In x (settle_group (h, t)) -> exists y, In y (h :: t) /\ same_but_type x y.
Proof.
  intros h t x. unfold settle_group. destruct (_ && _).
  - intros [<-|[]]. exists h. split; [now left|now repeat split].
  - destruct (_ && _).
    + intros [<-|[]]. exists h. split; [now left|now repeat split].
    + intros H. exists x. split; [exact H|now repeat split].
Qed.
Lemma settle_again : forall h t, exists h' t', settle_group (h, t) = h' :: t' /\ settle_group (h', t') = h' :: t' /\
  same_but_type h' h /\ (t' = [] \/ (h' = h /\ t' = t)).
Proof.
  intros h t. unfold settle_group at 1. destruct (negb (is_nilb t) && existsb is_inner (h :: t)) eqn:A.
  - eexists _, []. split; [reflexivity|]. split; [reflexivity|]. split; [now repeat split|now left].
  - destruct (negb (is_nilb t) && forallb _ (h :: t)) eqn:B.
    + exists h, []. split; [reflexivity|]. split; [reflexivity|]. split; [now repeat split|now left].
    + exists h, t. split; [reflexivity|]. split; [unfold settle_group; now rewrite A, B|]. split; [now repeat split|now right].
Qed.
Lemma grouped_again : forall E l gs, grouped E l gs ->
  exists gs', grouped E (flat_map settle_group gs) gs' /\ flat_map settle_group gs' = flat_map settle_group gs.
Proof.
  intros E l gs G. induction G as [|j l tw ot gs P G [gs' [G' IH]]]; [exists []; split; [constructor|reflexivity]|].
  destruct (settle_again j tw) as [h' [t' [S1 [S2 [S3 S4]]]]].
  exists ((h', t') :: gs'). cbn [flat_map]. rewrite S1, S2, IH. split; [|reflexivity]. cbn [app].
  destruct (parted_in _ _ _ _ _ P) as [P1 P2].
  eapply gr_cons; [|exact G']. apply parted_split.
  - intros x Hx. destruct S4 as [->|[-> ->]]; [destruct Hx|]. now apply P1.
  - intros x Hx. apply in_flat_map in Hx. destruct Hx as [[h t] [Hg Hx]].
    apply settle_origin in Hx. destruct Hx as [y [Hy Sy]].
    rewrite (join_equal_cong E h' j x y S3 Sy). apply P2. eapply grouped_members; [exact G|exact Hg|exact Hy].
Qed.
Lemma minimize_again : forall E js ms, minimize (text E) js = Ok ms -> minimize (text E) ms = Ok ms.
Proof.
  intros E js ms H. unfold minimize in *. apply bind_ok in H. destruct H as [gs [H1 H2]]. injection H2 as <-.
  apply group_joins_grouped in H1. destruct (grouped_again _ _ _ H1) as [gs' [G Q]].
  apply group_joins_grouped in G. rewrite G. cbn [bind]. now rewrite Q.
Qed.
Lemma min_nil : forall E js ms, minimize (text E) js = Ok ms -> is_nilb ms = is_nilb js.
Proof.
  intros E [|j js] ms H; [injection H as <-; reflexivity|].
  unfold minimize in H. apply bind_ok in H. destruct H as [gs [H1 H2]]. injection H2 as <-.
  apply group_joins_grouped in H1. inversion H1; subst. cbn [flat_map].
  destruct (settle_again j tw) as [h' [t' [-> _]]]. reflexivity.
Qed.

(** ** Objects without two joins on one table stay as they are *)
Lemma simple_kids : forall v x, simple v -> In x (children v) -> simple x.
Proof. intros v x [_ H]. apply H. Qed.
Lemma Forall2_same : forall A (R : A -> A -> Prop) l m, (forall x y, In x l -> R x y -> y = x) -> Forall2 R l m -> m = l.
Proof.
  intros A R l m H F. induction F as [|x y l m X F IH]; [reflexivity|].
  f_equal; [apply H; [now left|exact X]|]. apply IH. intros; apply H; [now right|assumption].
Qed.
Definition sames (R : val -> val -> Prop) (l : list val) : Prop := forall x y, In x l -> R x y -> y = x.
Lemma sames_app : forall R l m, sames R (l ++ m) -> sames R l /\ sames R m.
Proof. intros R l m H. split; intros x y Hx; apply H; rewrite in_app_iff; auto. Qed.
Lemma sames_flat : forall R T (h : T -> list val) l, sames R (flat_map h l) -> forall x, In x l -> sames R (h x).
Proof. intros R T h l H x Hx y z Hy. apply H. apply in_flat_map. eauto. Qed.
Lemma pair2_same : forall R p q, sames R (pair_vals p) -> pair2 R p q -> q = p.
Proof. intros R [a b] [c d] H [X Y]. simpl in *. f_equal; apply H; simpl; auto. Qed.
Lemma pairs2_same : forall R l m, sames R (flat_map pair_vals l) -> Forall2 (pair2 R) l m -> m = l.
Proof. intros R l m H. apply Forall2_same. intros x y Hx. apply pair2_same. eapply sames_flat; eauto. Qed.
Lemma fst2_same : forall B R (l m : list (val * B)), sames R (map fst l) -> Forall2 (fst2 R) l m -> m = l.
Proof.
  intros B R l m H. apply Forall2_same. intros [a b] [c d] Hx [X Y]. simpl in *. subst. f_equal. apply H; [|exact X].
  apply (in_map fst) in Hx. exact Hx.
Qed.
Lemma joins2_same : forall R l m, sames R (flat_map join_vals l) -> Forall2 (join2 R) l m -> m = l.
Proof.
  intros R l m H. apply Forall2_same. intros [t n a o] [t' n' a' o'] Hx [T [X [Y Z]]]. simpl in *. subst.
  assert (K : sames R (join_vals (MkJoin t' n a o))) by (eapply sames_flat; eauto). unfold join_vals in K; simpl in K.
  f_equal; [apply K; simpl; auto|apply K; simpl; auto|]. apply (Forall2_same _ R); [|exact Z]. intros; apply K; simpl; auto.
Qed.
Lemma opt2_same : forall R a b, sames R (opt_vals a) -> opt2 R a b -> b = a.
Proof. intros R a b H X. revert H. destruct X as [|x y X]; intros H; [reflexivity|]. f_equal. apply H; [now left|exact X]. Qed.
Lemma out2_same : forall R a b, sames R (out_vals a) -> out2 R a b -> b = a.
Proof.
  intros R [a1 a2 a3 a4] [b1 b2 b3 b4] H [X1 [X2 [X3 X4]]]. unfold out_vals in H; cbn [o_file o_fields o_lines o_encl] in *.
  apply sames_app in H. destruct H as [H1 H]. apply sames_app in H. destruct H as [H2 H]. apply sames_app in H. destruct H as [H3 H4].
  f_equal; eapply opt2_same; eauto.
Qed.
(** What happens to a table whose joins have simple parts. *)
Lemma table2_inv : forall E R t u, sames R (table_vals t) -> table2 E R t u ->
  tb_name u = tb_name t /\ tb_alias u = tb_alias t /\ (tb_joins u = tb_joins t \/ minimize (text E) (tb_joins t) = Ok (tb_joins u)).
Proof.
  intros E R [n a js] [n' a' js'] H [X [Y [j1 [j2 [M1 [F M2]]]]]]. unfold table_vals in H; cbn [tb_name tb_alias tb_joins] in *.
  split; [apply H; simpl; auto|]. split; [apply H; simpl; auto|].
  assert (HJ : sames R (flat_map join_vals js)) by (intros x y Hx; apply H; simpl; auto).
  assert (H1 : sames R (flat_map join_vals j1)).
  { destruct M1 as [->|M1]; [exact HJ|]. intros x y Hx. apply HJ. apply in_flat_map in Hx. destruct Hx as [j [Hj Hx]].
    destruct (minimize_origin _ _ _ M1 j Hj) as [j0 [K1 [K2 [K3 [K4 _]]]]]. apply in_flat_map. exists j0. split; [exact K1|].
    unfold join_vals in *. now rewrite <- K2, <- K3, <- K4. }
  apply joins2_same in F; [|exact H1]. subst j2.
  destruct M1 as [->|M1]; [destruct M2 as [->|M2]; auto|]. destruct M2 as [->|M2]; [auto|].
  rewrite (minimize_again _ _ _ M1) in M2. injection M2 as <-. auto.
Qed.
Lemma tables2_same : forall E R l m, sames R (flat_map table_vals l) -> (forall t, In t l -> List.length (tb_joins t) <= 1) ->
  Forall2 (table2 E R) l m -> m = l.
Proof.
  intros E R l m H L. apply Forall2_same. intros t u Ht T.
  apply table2_inv in T; [|eapply sames_flat; eauto]. destruct T as [A [B C]]. specialize (L t Ht).
  destruct t as [n a js], u as [n' a' js']. cbn [tb_name tb_alias tb_joins] in *. subst. f_equal.
  destruct C as [C|C]; [exact C|]. eapply min_short; eauto.
Qed.
Lemma Forall2_vals : forall R l m, sames R l -> Forall2 R l m -> m = l.
Proof. intros R l m H. apply Forall2_same. exact H. Qed.
Lemma rows2_same : forall R l m, sames R (List.concat l) -> Forall2 (Forall2 R) l m -> m = l.
Proof.
  intros R l m H. apply Forall2_same. intros x y Hx. apply Forall2_vals. intros a b Ha. apply H. apply in_concat. eauto.
Qed.
Lemma sel2_same : forall E R p q, sames R (sel_vals p) -> (forall t, In t (s_tabs p) -> List.length (tb_joins t) <= 1) -> sel2 E R p q -> q = p.
Proof.
  intros E R [op c t w g h o l out fu] [op' c' t' w' g' h' o' l' out' fu'] H L X. unfold sel2 in X. unfold sel_vals in H.
  cbn [s_opts s_cols s_tabs s_where s_group s_having s_order s_limit s_out s_forupd] in *.
  do 6 (apply sames_app in H; let K := fresh "K" in destruct H as [K H]).
  destruct X as [<- [X1 [X2 [X3 [X4 [X5 [X6 [<- [X7 <-]]]]]]]]].
  apply pairs2_same in X1; [|assumption]. apply tables2_same in X2; [|assumption|assumption]. apply Forall2_vals in X3; [|assumption].
  apply fst2_same in X4; [|assumption]. apply Forall2_vals in X5; [|assumption]. apply fst2_same in X6; [|assumption].
  apply out2_same in X7; [|assumption]. now subst.
Qed.
Lemma ins2_same : forall E R p q, sames R (ins_vals p) -> (forall t, In t (i_tabs p) -> List.length (tb_joins t) <= 1) -> ins2 E R p q -> q = p.
Proof.
  intros E R [rp ig t rows dup cf upd] [rp' ig' t' rows' dup' cf' upd'] H L X. unfold ins2 in X. unfold ins_vals in H.
  cbn [i_replace i_ignore i_tabs i_rows i_dup i_conflict i_upd] in *.
  repeat (apply sames_app in H; let K := fresh "K" in destruct H as [K H]).
  destruct X as [<- [<- [X1 [X2 [X3 [<- X4]]]]]].
  apply tables2_same in X1; [|assumption|assumption]. apply rows2_same in X2; [|assumption].
  apply Forall2_vals in X3; [|assumption]. apply Forall2_vals in X4; [|assumption]. now subst.
Qed.
Lemma upd2_same : forall E R p q, sames R (upd_vals p) -> (forall t, In t (u_tabs p) -> List.length (tb_joins t) <= 1) -> upd2 E R p q -> q = p.
Proof.
  intros E R [ig t v w al] [ig' t' v' w' al'] H L X. unfold upd2 in X. unfold upd_vals in H.
  cbn [u_ignore u_tabs u_vals u_where u_allow] in *.
  repeat (apply sames_app in H; let K := fresh "K" in destruct H as [K H]).
  destruct X as [<- [X1 [X2 [X3 <-]]]].
  apply tables2_same in X1; [|assumption|assumption].
  apply Forall2_vals in X2; [|assumption]. apply Forall2_vals in X3; [|assumption]. now subst.
Qed.
Lemma del2_same : forall E R p q, sames R (del_vals p) -> (forall t, In t (d_tabs p ++ d_refs p) -> List.length (tb_joins t) <= 1) -> del2 E R p q -> q = p.
Proof.
  intros E R [ig t r w al] [ig' t' r' w' al'] H L X. unfold del2 in X. unfold del_vals in H.
  cbn [d_ignore d_tabs d_refs d_where d_allow] in *.
  repeat (apply sames_app in H; let K := fresh "K" in destruct H as [K H]).
  destruct X as [<- [X1 [X2 [X3 <-]]]].
  apply tables2_same in X1; [|assumption|intros; apply L; rewrite in_app_iff; auto].
  apply tables2_same in X2; [|assumption|intros; apply L; rewrite in_app_iff; auto].
  apply Forall2_vals in X3; [|assumption]. now subst.
Qed.
Lemma simple_same : forall E v v', simple v -> touch E v v' -> v' = v.
Proof.
  intros E v v' S. revert v'. induction S as [v HT HC IH]. intros v' T.
  assert (SM : sames (touch E) (children v)) by (intros x y Hx Hxy; now apply (IH x Hx)).
  inversion T; subst; cbn [children tables_of] in *; try reflexivity;
    try (repeat match goal with X : touch _ ?a ?b |- _ =>
           lazymatch a with b => clear X | _ => assert (b = a) by (apply SM; [simpl; auto|exact X]); clear X; subst end end; reflexivity).
  - f_equal. eapply Forall2_vals; eauto.
  - f_equal. eapply Forall2_vals; eauto.
  - f_equal. eapply pairs2_same; eauto.
  - apply sames_app in SM. destruct SM as [S1 S2]. apply sames_app in S2. destruct S2 as [S2 S3].
    f_equal; [eapply pairs2_same; eauto|eapply fst2_same; eauto|]. apply S3; [now left|assumption].
  - f_equal. eapply sel2_same; eauto.
  - f_equal. eapply ins2_same; eauto.
  - f_equal. eapply upd2_same; eauto.
  - f_equal. eapply del2_same; eauto.
Qed.

(** ** Rendering does not see the effect *)
Section Same.
  Context (E : env).
  Notation T := (touch E).
  Notation r := (text E).
  Definition txt (l : list val) : Prop := forall x y, In x l -> T x y -> r y = r x.
  Lemma txt_app : forall l m, txt (l ++ m) -> txt l /\ txt m.
  Proof. intros l m H. split; intros x y Hx; apply H; rewrite in_app_iff; auto. Qed.
  Lemma txt_flat : forall A (h : A -> list val) l, txt (flat_map h l) -> forall x, In x l -> txt (h x).
  Proof. intros A h l H x Hx y z Hy. apply H. apply in_flat_map. eauto. Qed.
  Lemma touch_ref : forall x y, T x y -> r y = r x -> sqlref E r y = sqlref E r x.
  Proof. intros x y H Q. inversion H; subst; cbn [sqlref is_sql]; try reflexivity; now rewrite Q. Qed.
  Lemma touch_value : forall x y, T x y -> r y = r x -> sqlvalue E r y = sqlvalue E r x.
  Proof. intros x y H Q. inversion H; subst; try reflexivity; cbn [sqlvalue]; now rewrite Q. Qed.
  Lemma touch_truthy : forall x y, T x y -> truthy y = truthy x.
  Proof. intros x y H. inversion H; subst; reflexivity. Qed.
  Lemma touch_none : forall x y, T x y -> is_none y = is_none x.
  Proof. intros x y H. inversion H; subst; reflexivity. Qed.
  Lemma Forall2_map : forall A B (R : A -> A -> Prop) (f : A -> res B) l m,
    (forall x y, In x l -> R x y -> f y = f x) -> Forall2 R l m -> mapM f m = mapM f l.
  Proof.
    intros A B R f l m H F. induction F as [|x y l m X F IH]; [reflexivity|]. cbn [mapM].
    rewrite (H x y) by (auto; now left). rewrite IH; [reflexivity|]. intros; apply H; [now right|assumption].
  Qed.
  Lemma Forall2_nil : forall A B (R : A -> B -> Prop) l m, Forall2 R l m -> is_nilb m = is_nilb l.
  Proof. intros A B R l m [|x y l' m' X F]; reflexivity. Qed.
  Lemma touch_aliased : forall p q, txt (pair_vals p) -> pair2 T p q -> aliased_str E r q = aliased_str E r p.
  Proof.
    intros [a b] [c d] H [X Y]. cbn [fst snd] in *. cbn [aliased_str].
    rewrite (touch_truthy _ _ Y), (touch_ref _ _ X), (touch_ref _ _ Y); [reflexivity| |]; apply H; simpl; auto.
  Qed.
  Lemma touch_columns : forall l m, txt (flat_map pair_vals l) -> Forall2 (pair2 T) l m -> columns_str E r m = columns_str E r l.
  Proof.
    intros l m H F. unfold columns_str. rewrite (Forall2_map _ _ _ _ _ _ (fun x y Hx => touch_aliased x y (txt_flat _ _ _ H x Hx)) F).
    reflexivity.
  Qed.
  Lemma touch_orders : forall k l m, txt (map fst l) -> Forall2 (fst2 T) l m -> orders_str E r k m = orders_str E r k l.
  Proof.
    intros k l m H F. unfold orders_str. rewrite (Forall2_map _ _ (fst2 T) (order_str E r) l m); [reflexivity| |exact F].
    intros [a b] [c d] Hx [X Y]. cbn [fst snd] in *. subst d.
    assert (Q : sqlref E r c = sqlref E r a).
    { apply touch_ref; [exact X|]. apply H; [|exact X]. apply (in_map fst) in Hx. exact Hx. }
    destruct b; cbn [order_str]; now rewrite Q.
  Qed.
  Lemma touch_conds : forall k l m, txt l -> Forall2 T l m -> conds_str r k m = conds_str r k l.
  Proof. intros k l m H F. unfold conds_str. rewrite (Forall2_map _ _ _ r l m H F). reflexivity. Qed.
  Lemma touch_values : forall k l m, txt l -> Forall2 T l m -> values_str r k m = values_str r k l.
  Proof. intros k l m H F. unfold values_str. rewrite (Forall2_map _ _ _ r l m H F). reflexivity. Qed.
  Lemma touch_opt : forall k a b, txt (opt_vals a) -> opt2 T a b -> out_opt E r k b = out_opt E r k a.
  Proof.
    intros k a b H X. revert H. destruct X as [|x y X]; intros H; [reflexivity|]. cbn [out_opt].
    rewrite (touch_value _ _ X); [reflexivity|]. apply H; [now left|exact X].
  Qed.
  Lemma touch_out : forall a b, txt (out_vals a) -> out2 T a b -> out_str E r b = out_str E r a /\ out_set b = out_set a.
  Proof.
    intros [a1 a2 a3 a4] [b1 b2 b3 b4] H [X1 [X2 [X3 X4]]]. unfold out_vals in H; cbn [o_file o_fields o_lines o_encl] in *.
    apply txt_app in H. destruct H as [H1 H]. apply txt_app in H. destruct H as [H2 H]. apply txt_app in H. destruct H as [H3 H4].
    split.
    - unfold out_str. cbn [o_file o_fields o_lines o_encl].
      now rewrite (touch_opt _ _ _ H1 X1), (touch_opt _ _ _ H2 X2), (touch_opt _ _ _ H3 X3), (touch_opt _ _ _ H4 X4).
    - unfold out_set. cbn [o_file]. destruct X1; reflexivity.
  Qed.
  (** Joins whose parts do not change: the same text before and after minimising. *)
  Lemma touch_table : forall t u, txt [tb_name t; tb_alias t] -> sames T (flat_map join_vals (tb_joins t)) -> table2 E T t u ->
    table_str E r u = table_str E r t.
  Proof.
    intros t u H S X. unfold table_str.
    assert (A : aliased_str E r (tb_name u, tb_alias u) = aliased_str E r (tb_name t, tb_alias t)).
    { destruct X as [X1 [X2 _]]. apply touch_aliased; [exact H|]. split; assumption. }
    assert (J : tb_joins u = tb_joins t \/ minimize r (tb_joins t) = Ok (tb_joins u)).
    { destruct X as [_ [_ X]]. assert (X' : table2 E T (MkTable VNone VNone (tb_joins t)) (MkTable VNone VNone (tb_joins u))).
      { split; [apply t_same|]. split; [apply t_same|exact X]. }
      apply table2_inv in X'; [apply X'|]. unfold table_vals; simpl. intros x y [<-|[<-|Hx]] Hxy.
      - inversion Hxy; reflexivity.
      - inversion Hxy; reflexivity.
      - now apply S. }
    rewrite A. destruct J as [->|J]; [reflexivity|].
    rewrite (min_nil _ _ _ J), J, (minimize_again _ _ _ J). reflexivity.
  Qed.
  Definition goodtabs (l : list (table val)) : Prop :=
    txt (flat_map table_vals l) /\ (forall t, In t l -> sames T (flat_map join_vals (tb_joins t))).
  Lemma touch_tables : forall k l m, goodtabs l -> Forall2 (table2 E T) l m -> tables_str E r k m = tables_str E r k l.
  Proof.
    intros k l m [H S] F. unfold tables_str. rewrite (Forall2_map _ _ (table2 E T) (table_str E r) l m); [reflexivity| |exact F].
    intros t u Ht X. apply touch_table; [|now apply S|exact X].
    intros x y Hx. apply (txt_flat _ _ _ H t Ht). unfold table_vals. simpl in *. tauto.
  Qed.
  Lemma touch_select : forall p q, txt (sel_vals p) -> goodtabs (s_tabs p) -> sel2 E T p q -> select_str E r q = select_str E r p.
  Proof.
    intros [op c t w g h o l out fu] [op' c' t' w' g' h' o' l' out' fu'] H G X. unfold sel2 in X. unfold sel_vals in H.
    cbn [s_opts s_cols s_tabs s_where s_group s_having s_order s_limit s_out s_forupd] in *.
    do 6 (apply txt_app in H; let K := fresh "K" in destruct H as [K H]).
    destruct X as [<- [X1 [X2 [X3 [X4 [X5 [X6 [<- [X7 <-]]]]]]]]].
    unfold select_str. cbn [s_opts s_cols s_tabs s_where s_group s_having s_order s_limit s_out s_forupd].
    rewrite (touch_columns _ _ K X1), (touch_tables _ _ _ G X2), (touch_conds _ _ _ K1 X3), (touch_orders _ _ _ K2 X4),
      (touch_conds _ _ _ K3 X5), (touch_orders _ _ _ K4 X6).
    destruct (touch_out _ _ H X7) as [-> ->].
    now rewrite (Forall2_nil _ _ _ _ _ X2), (Forall2_nil _ _ _ _ _ X3), (Forall2_nil _ _ _ _ _ X4), (Forall2_nil _ _ _ _ _ X5), (Forall2_nil _ _ _ _ _ X6).
  Qed.
  Lemma touch_update : forall p q, txt (upd_vals p) -> goodtabs (u_tabs p) -> upd2 E T p q -> update_str E r q = update_str E r p.
  Proof.
    intros [ig t v w al] [ig' t' v' w' al'] H G X. unfold upd2 in X. unfold upd_vals in H.
    cbn [u_ignore u_tabs u_vals u_where u_allow] in *.
    do 2 (apply txt_app in H; let K := fresh "K" in destruct H as [K H]).
    destruct X as [<- [X1 [X2 [X3 <-]]]].
    unfold update_str. cbn [u_ignore u_tabs u_vals u_where u_allow].
    rewrite (touch_tables _ _ _ G X1), (touch_values _ _ _ K0 X2), (touch_conds _ _ _ H X3).
    now rewrite (Forall2_nil _ _ _ _ _ X1), (Forall2_nil _ _ _ _ _ X2), (Forall2_nil _ _ _ _ _ X3).
  Qed.
  Lemma touch_delete : forall p q, txt (del_vals p) -> goodtabs (d_tabs p ++ d_refs p) -> del2 E T p q -> delete_str E r q = delete_str E r p.
  Proof.
    intros [ig t rf w al] [ig' t' rf' w' al'] H [_ S] X. unfold del2 in X. unfold del_vals in H.
    cbn [d_ignore d_tabs d_refs d_where d_allow] in *.
    do 2 (apply txt_app in H; let K := fresh "K" in destruct H as [K H]).
    assert (G1 : goodtabs t) by (split; [assumption|intros; apply S; rewrite in_app_iff; auto]).
    assert (G2 : goodtabs rf) by (split; [assumption|intros; apply S; rewrite in_app_iff; auto]).
    destruct X as [<- [X1 [X2 [X3 <-]]]].
    unfold delete_str. cbn [d_ignore d_tabs d_refs d_where d_allow].
    rewrite (touch_tables _ _ _ G1 X1), (touch_tables _ _ _ G2 X2), (touch_conds _ _ _ H X3).
    now rewrite (Forall2_nil _ _ _ _ _ X1), (Forall2_nil _ _ _ _ _ X2), (Forall2_nil _ _ _ _ _ X3).
  Qed.
  (** Rows of an insert. *)
  Lemma touch_part_column : forall x y, T x y -> part_column y = part_column x.
  Proof.
    intros x y H. inversion H; subst; try reflexivity. cbn [part_column].
    match goal with X : touch _ c c' |- _ => inversion X; subst; reflexivity end.
  Qed.
  Lemma touch_all_columns : forall l m, Forall2 (Forall2 T) l m -> all_columns m = all_columns l.
  Proof.
    intros l m F. unfold all_columns.
    assert (Q : mapM part_column (List.concat m) = mapM part_column (List.concat l)).
    { apply (Forall2_map _ _ T); [intros; now apply touch_part_column|].
      induction F as [|x y l m X F IH]; [constructor|]. cbn [List.concat]. apply Forall2_app; assumption. }
    now rewrite Q.
  Qed.
  Lemma touch_row_value : forall c row row', Forall2 T row row' ->
    T (row_value row c) (row_value row' c) /\
    (row_value row c = VNone \/ exists k, In (VValue k (row_value row c)) row).
  Proof.
    intros c row row' F. unfold row_value.
    assert (A : forall P acc acc', (forall x, In x row -> In x P) -> T acc acc' -> (acc = VNone \/ exists k, In (VValue k acc) P) ->
      let f := fun acc p => match p with VValue (VStr c') v => if seqb c c' then v else acc | _ => acc end in
      T (fold_left f row acc) (fold_left f row' acc') /\ (fold_left f row acc = VNone \/ exists k, In (VValue k (fold_left f row acc)) P)).
    { induction F as [|x y l m X F IH]; intros P acc acc' SUB HT HP f; [split; [exact HT|exact HP]|]. cbn [fold_left].
      apply IH; [intros; apply SUB; now right| |].
      - inversion X; subst; cbn [f]; try exact HT.
        + destruct y as [| | | | | | | | | | | | | | | | |c0 v0| | | | | | | | | | | | |]; cbn [f]; try exact HT.
          destruct c0; try exact HT. destruct (seqb c s); [apply t_same|exact HT].
        + match goal with X : touch _ c0 c' |- _ => inversion X; subst; try exact HT end.
          destruct c'; try exact HT. destruct (seqb c s); [assumption|exact HT].
      - destruct x; cbn [f]; try exact HP. destruct x1; try exact HP. destruct (seqb c s); [|exact HP].
        right. exists (VStr s). apply SUB. now left. }
    apply A; [auto|apply t_same|now left].
  Qed.

  Lemma touch_rows : forall l m, (forall row k v y, In row l -> In (VValue k v) row -> T v y -> r y = r v) ->
    Forall2 (Forall2 T) l m -> rows_str E r m = rows_str E r l.
  Proof.
    intros l m H F. unfold rows_str. rewrite (touch_all_columns _ _ F). destruct (all_columns l) as [cols|e]; [|reflexivity].
    cbn [bind]. rewrite (Forall2_map _ _ (Forall2 T) (row_str E r cols) l m); [reflexivity| |exact F].
    intros row row' Hrow FR. unfold row_str.
    assert (Q : mapM (fun c => sqlvalue E r (row_value row' c)) cols = mapM (fun c => sqlvalue E r (row_value row c)) cols).
    { apply mapM_ext. intros c _. destruct (touch_row_value c row row' FR) as [X Y]. apply touch_value; [exact X|].
      destruct Y as [Y|[k Y]].
      - rewrite Y in *. inversion X. reflexivity.
      - eapply H; eauto. }
    now rewrite Q.
  Qed.
  Lemma touch_insert : forall p q, txt (ins_vals p) -> goodtabs (i_tabs p) ->
    (forall row k v y, In row (i_rows p) -> In (VValue k v) row -> T v y -> r y = r v) ->
    ins2 E T p q -> insert_str E r q = insert_str E r p.
  Proof.
    intros [rp ig t rows dup cf upd] [rp' ig' t' rows' dup' cf' upd'] H G HR X. unfold ins2 in X. unfold ins_vals in H.
    cbn [i_replace i_ignore i_tabs i_rows i_dup i_conflict i_upd] in *.
    do 3 (apply txt_app in H; let K := fresh "K" in destruct H as [K H]).
    destruct X as [<- [<- [X1 [X2 [X3 [<- X4]]]]]].
    unfold insert_str. cbn [i_replace i_ignore i_tabs i_rows i_dup i_conflict i_upd].
    rewrite (touch_tables _ _ _ G X1), (touch_rows _ _ HR X2), (touch_values _ _ _ K1 X3), (touch_values _ _ _ H X4).
    now rewrite (Forall2_nil _ _ _ _ _ X1), (Forall2_nil _ _ _ _ _ X2), (Forall2_nil _ _ _ _ _ X3), (Forall2_nil _ _ _ _ _ X4).
  Qed.
  Lemma touch_expr : forall x y, T x y -> r y = r x -> expr_str E r y = expr_str E r x.
  Proof. intros x y H Q. inversion H; subst; try reflexivity; cbn [expr_str sqlref is_sql]; now rewrite Q. Qed.
  Lemma touch_star : forall x y s, T x y -> r y = r x -> pyeq r y (VStr s) = pyeq r x (VStr s).
  Proof.
    intros x y s H Q. inversion H; subst; try reflexivity; cbn [pyeq textual_eq is_sql]; try reflexivity; try (now rewrite Q).
  Qed.
  Lemma touch_agg : forall k x y, T x y -> r y = r x -> agg_expr E r k y = agg_expr E r k x.
  Proof.
    intros k x y H Q. destruct k; cbn [agg_expr]; try (now apply touch_expr). now rewrite (touch_star _ _ _ H Q), Q, (touch_expr _ _ H Q).
  Qed.
  Lemma touch_fmt : forall k c rk x y, T x y -> r y = r x ->
    fmt_condition c rk (transformer E r k y) y = fmt_condition c rk (transformer E r k x) x.
  Proof.
    intros k c rk x y H Q. destruct H; try reflexivity;
      unfold fmt_condition, fmt_in, transformer; destruct rk, k; cbn [sqlvalue]; rewrite Q; reflexivity.
  Qed.
End Same.

(** The parts of a plainly joined object are plainly joined. *)
Lemma pj_kids : forall v x, plainly_joined v -> In x (children v) -> plainly_joined x.
Proof. intros v x [_ _ H]. apply H. Qed.
Lemma pj_tabs : forall E v t, plainly_joined v -> In t (tables_of v) -> sames (touch E) (flat_map join_vals (tb_joins t)).
Proof. intros E v t [_ H _] Ht x y Hx. apply simple_same. eapply H; eauto. Qed.
Lemma touch_text : forall E v v', plainly_joined v -> touch E v v' -> text E v' = text E v.
Proof.
  intros E v. remember (depth v) as n eqn:D. revert v D. induction n as [n IH] using (well_founded_induction lt_wf). intros v D v' P T.
  assert (TX : txt E (children v)).
  { intros x y Hx Hxy. apply (IH (depth x)) with (v := x); auto; [subst; now apply children_depth|now apply (pj_kids v)]. }
  assert (GT : forall t, In t (tables_of v) -> sames (touch E) (flat_map join_vals (tb_joins t))) by (intros; eapply pj_tabs; eauto).
  assert (G2 : forall x k a y, In x (children v) -> x = VValue k a -> touch E a y -> text E y = text E a).
  { intros x k a y Hx Q Hy. apply (IH (depth a)) with (v := a); auto.
    - pose proof (children_depth _ _ Hx). pose proof (children_depth x a). subst x. cbn [children] in *. simpl in *. lia.
    - apply (pj_kids x); [now apply (pj_kids v)|]. subst x. simpl. auto. }
  rewrite !text_unfold.
  inversion T; subst; try reflexivity; cbn [children tables_of] in *; cbn [str_body].
  - apply touch_value; [assumption|]. apply TX; [simpl; auto|assumption].
  - apply touch_ref; [assumption|]. apply TX; [simpl; auto|assumption].
  - rewrite (TX x y); [reflexivity|simpl; auto|assumption].
  - assert (H1 : text E y = text E x) by (apply TX; [simpl; auto|assumption]).
    assert (H2 : text E c' = text E c) by (apply TX; [simpl; auto|assumption]).
    rewrite (touch_ref E c c') by assumption. now apply touch_fmt.
  - assert (H1 : text E y = text E x) by (apply TX; [simpl; auto|assumption]).
    assert (H2 : text E c' = text E c) by (apply TX; [simpl; auto|assumption]).
    unfold value_str. now rewrite (touch_ref E c c'), (touch_value E x y).
  - now apply touch_conds.
  - rewrite (TX a a'), (TX b b') by (simpl; auto).
    assert (B : forall x y s, touch E x y -> bracket y s = bracket x s).
    { intros x y s Hxy. unfold bracket. replace (needs_brackets y) with (needs_brackets x); [reflexivity|].
      destruct Hxy; try reflexivity. cbn [needs_brackets]. f_equal. clear -H1. induction H1; simpl; congruence. }
    destruct (text E a) as [s|e]; [|reflexivity]. destruct (text E b) as [s'|e]; [|reflexivity]. cbn [bind].
    now rewrite (B a a'), (B b b').
  - now rewrite (touch_conds E _ l m).
  - rewrite (TX x y); [reflexivity|simpl; auto|assumption].
  - rewrite (touch_agg E k x y); [reflexivity|assumption|]. apply TX; [simpl; auto|assumption].
  - now rewrite (touch_columns E l m).
  - apply txt_app in TX. destruct TX as [T1 T2]. apply txt_app in T2. destruct T2 as [T2 T3].
    rewrite (touch_columns E l m), (touch_orders E _ o o'), (Forall2_nil _ _ _ _ _ H0), (touch_truthy E s s'), (touch_value E s s'); try assumption; try reflexivity.
    all: apply T3; [now left|assumption].
  - rewrite (touch_expr E x y); [reflexivity|assumption|]. apply TX; [simpl; auto|assumption].
  - apply touch_select; [exact TX| |assumption]. split; [|exact GT]. clear -TX. unfold sel_vals in TX. apply txt_app in TX. destruct TX as [_ TX]. now apply txt_app in TX.
  - rewrite (TX a a'), (TX b b'); (reflexivity || assumption || (simpl; auto)).
  - apply touch_insert; [exact TX| | |assumption].
    + split; [|exact GT]. clear -TX. unfold ins_vals in TX. now apply txt_app in TX.
    + intros row k a y Hr Ha. apply (G2 (VValue k a) k a y); [|reflexivity]. unfold ins_vals. rewrite !in_app_iff. right; left. apply in_concat. eauto.
  - apply touch_update; [exact TX| |assumption]. split; [|exact GT]. clear -TX. unfold upd_vals in TX. now apply txt_app in TX.
  - apply touch_delete; [exact TX| |assumption]. split; [|exact GT]. clear -TX. unfold del_vals in TX.
    rewrite app_assoc in TX. apply txt_app in TX. rewrite flat_map_app. apply TX.
Qed.

(** ** Repeated rendering *)
Lemma Forall2_back : forall A B (R : A -> B -> Prop) l m y, Forall2 R l m -> In y m -> exists x, In x l /\ R x y.
Proof.
  intros A B R l m y F. induction F as [|a b l m X F IH]; [intros []|]. intros [<-|H]; [exists a; split; [now left|exact X]|].
  destruct (IH H) as [x [H1 H2]]. exists x. split; [now right|exact H2].
Qed.
Definition from_kids (R : val -> val -> Prop) (l m : list val) : Prop := forall y, In y m -> exists x, In x l /\ R x y.
Lemma fk_app : forall R l m l' m', from_kids R l m -> from_kids R l' m' -> from_kids R (l ++ l') (m ++ m').
Proof.
  intros R l m l' m' H1 H2 y Hy. apply in_app_iff in Hy. destruct Hy as [Hy|Hy]; [apply H1 in Hy|apply H2 in Hy];
    destruct Hy as [x [A B]]; exists x; rewrite in_app_iff; auto.
Qed.
Lemma fk_list : forall R l m, Forall2 R l m -> from_kids R l m.
Proof. intros R l m F y Hy. eapply Forall2_back; eauto. Qed.
Lemma fk_flat : forall R A (h : A -> list val) (Q : A -> A -> Prop) l m, (forall a b, In a l -> Q a b -> from_kids R (h a) (h b)) ->
  Forall2 Q l m -> from_kids R (flat_map h l) (flat_map h m).
Proof.
  intros R A h Q l m H F y Hy. apply in_flat_map in Hy. destruct Hy as [b [Hb Hy]].
  destruct (Forall2_back _ _ _ _ _ _ F Hb) as [a [Ha HQ]]. destruct (H a b Ha HQ y Hy) as [x [X1 X2]].
  exists x. split; [|exact X2]. apply in_flat_map. eauto.
Qed.
Lemma fk_pairs : forall R l m, Forall2 (pair2 R) l m -> from_kids R (flat_map pair_vals l) (flat_map pair_vals m).
Proof.
  intros R l m. apply fk_flat. intros [a b] [c d] _ [X Y] y [<-|[<-|[]]]; [exists a|exists b]; simpl; auto.
Qed.
Lemma fk_fst : forall B R (l m : list (val * B)), Forall2 (fst2 R) l m -> from_kids R (map fst l) (map fst m).
Proof.
  intros B R l m F y Hy. apply in_map_iff in Hy. destruct Hy as [p [<- Hp]].
  destruct (Forall2_back _ _ _ _ _ _ F Hp) as [x [A [X _]]]. exists (fst x). split; [now apply in_map|exact X].
Qed.
Lemma fk_opt : forall R a b, opt2 R a b -> from_kids R (opt_vals a) (opt_vals b).
Proof. intros R a b [|x y X] z; [intros []|]. intros [<-|[]]. exists x. split; [now left|exact X]. Qed.
Lemma fk_out : forall R a b, out2 R a b -> from_kids R (out_vals a) (out_vals b).
Proof. intros R a b [X1 [X2 [X3 X4]]]. unfold out_vals. repeat apply fk_app; now apply fk_opt. Qed.
Lemma fk_rows : forall R l m, Forall2 (Forall2 R) l m -> from_kids R (List.concat l) (List.concat m).
Proof.
  intros R l m F. induction F as [|x y l m X F IH]; [intros ? []|]. cbn [List.concat]. apply fk_app; [now apply fk_list|exact IH].
Qed.
Lemma min_vals : forall E js ms x, minimised E js ms -> In x (flat_map join_vals ms) -> In x (flat_map join_vals js).
Proof.
  intros E js ms x [->|M] Hx; [exact Hx|]. apply in_flat_map in Hx. destruct Hx as [j [Hj Hx]].
  destruct (minimize_origin _ _ _ M j Hj) as [j0 [K1 [K2 [K3 [K4 _]]]]]. apply in_flat_map. exists j0. split; [exact K1|].
  unfold join_vals in *. now rewrite <- K2, <- K3, <- K4.
Qed.
Lemma fk_joins : forall E (R : val -> val -> Prop) t u, table2 E R t u -> from_kids R (flat_map join_vals (tb_joins t)) (flat_map join_vals (tb_joins u)).
Proof.
  intros E R t u [_ [_ [j1 [j2 [M1 [F M2]]]]]] y Hy. apply (min_vals _ _ _ _ M2) in Hy.
  assert (G : from_kids R (flat_map join_vals j1) (flat_map join_vals j2)).
  { eapply fk_flat; [|exact F]. intros a b _ [_ [X [Y Z]]] z [<-|[<-|Hz]].
    - exists (j_name a). split; [now left|exact X].
    - exists (j_alias a). split; [right; now left|exact Y].
    - destruct (fk_list _ _ _ Z z Hz) as [x [X1 X2]]. exists x. split; [right; now right|exact X2]. }
  destruct (G y Hy) as [x [X1 X2]]. exists x. split; [|exact X2]. eapply min_vals; eauto.
Qed.
Lemma fk_tables : forall E R l m, Forall2 (table2 E R) l m -> from_kids R (flat_map table_vals l) (flat_map table_vals m).
Proof.
  intros E R l m. apply fk_flat. intros t u _ X y [<-|[<-|Hy]].
  - exists (tb_name t). split; [now left|apply X].
  - exists (tb_alias t). split; [right; now left|apply X].
  - destruct (fk_joins _ _ _ _ X y Hy) as [x [X1 X2]]. exists x. split; [right; now right|exact X2].
Qed.
Lemma touch_kids : forall E v v', touch E v v' -> from_kids (touch E) (children v) (children v').
Proof.
  intros E v v' T. inversion T; subst; cbn [children]; try (now apply fk_list); try (now apply fk_pairs);
    try (intros z Hz; exists z; split; [exact Hz|apply t_same]);
    try (intros z [<-|[]]; eexists; split; [now left|assumption]);
    try (intros z [<-|[<-|[]]]; [eexists; split; [now left|assumption]|eexists; split; [right; now left|assumption]]).
  - apply fk_app; [now apply fk_pairs|]. apply fk_app; [now apply fk_fst|]. intros z [<-|[]]. eexists; split; [now left|assumption].
  - destruct H as [_ [X1 [X2 [X3 [X4 [X5 [X6 [_ [X7 _]]]]]]]]]. unfold sel_vals.
    apply fk_app; [now apply fk_pairs|]. apply fk_app; [eapply fk_tables; eauto|]. apply fk_app; [now apply fk_list|].
    apply fk_app; [now apply fk_fst|]. apply fk_app; [now apply fk_list|]. apply fk_app; [now apply fk_fst|now apply fk_out].
  - destruct H as [_ [_ [X1 [X2 [X3 [_ X4]]]]]]. unfold ins_vals.
    repeat apply fk_app; [eapply fk_tables; eauto|now apply fk_rows|now apply fk_list|now apply fk_list].
  - destruct H as [_ [X1 [X2 [X3 _]]]]. unfold upd_vals. repeat apply fk_app; [eapply fk_tables; eauto|now apply fk_list|now apply fk_list].
  - destruct H as [_ [X1 [X2 [X3 _]]]]. unfold del_vals. repeat apply fk_app; [eapply fk_tables; eauto|eapply fk_tables; eauto|now apply fk_list].
Qed.
Lemma touch_tabs : forall E v v' u, touch E v v' -> In u (tables_of v') -> exists t, In t (tables_of v) /\ (table2 E (touch E) t u \/ u = t).
Proof.
  intros E v v' u T Hu.
  assert (B : forall l m, Forall2 (table2 E (touch E)) l m -> In u m -> exists t, In t l /\ (table2 E (touch E) t u \/ u = t)).
  { intros l m F H. destruct (Forall2_back _ _ _ _ _ _ F H) as [t [H1 H2]]. eauto. }
  inversion T; subst; cbn [tables_of] in *; try contradiction; try (exists u; auto; fail).
  - destruct H as [_ [_ [X _]]]. eapply B; eauto.
  - destruct H as [_ [_ [X _]]]. eapply B; eauto.
  - destruct H as [_ [X _]]. eapply B; eauto.
  - destruct H as [_ [X1 [X2 _]]]. apply in_app_iff in Hu. destruct Hu as [Hu|Hu].
    + destruct (B _ _ X1 Hu) as [t [H1 H2]]. exists t. rewrite in_app_iff. auto.
    + destruct (B _ _ X2 Hu) as [t [H1 H2]]. exists t. rewrite in_app_iff. auto.
Qed.
Lemma touch_pj : forall E v v', plainly_joined v -> touch E v v' -> plainly_joined v'.
Proof.
  intros E v. induction v using val_ind_children. intros v' P T. constructor.
  - intros C. destruct P as [P _ _]. destruct T; simpl in *; try contradiction. now apply P.
  - intros u x Hu Hx. destruct (touch_tabs _ _ _ _ T Hu) as [t [Ht [X| ->]]]; [|destruct P as [_ P _]; eapply P; eauto].
    destruct (fk_joins _ _ _ _ X x Hx) as [x0 [Y Z]]. destruct P as [_ P _]. assert (S : simple x0) by (eapply P; eauto).
    now rewrite (simple_same _ _ _ S Z).
  - intros y Hy. destruct (touch_kids _ _ _ T y Hy) as [x [X Y]]. apply (H x X); [|exact Y]. eapply pj_kids; eauto.
Qed.
Lemma touches_text : forall E v v', plainly_joined v -> touches E v v' -> text E v' = text E v.
Proof.
  intros E v v' P T. induction T as [v|v w x X T IH]; [reflexivity|].
  rewrite IH by (eapply touch_pj; eauto). now apply touch_text.
Qed.

(** ** The object after one rendering *)
Lemma map_same : forall A (f : A -> A) l, (forall x, In x l -> f x = x) -> map f l = l.
Proof. intros A f l H. induction l as [|x l IH]; [reflexivity|]. simpl. rewrite H by now left. f_equal. apply IH. intros; apply H; now right. Qed.
Lemma Forall2_map_r : forall A (R : A -> A -> Prop) (f : A -> A) l, (forall x, In x l -> R x (f x)) -> Forall2 R l (map f l).
Proof. intros A R f l H. induction l as [|x l IH]; [constructor|]. simpl. constructor; [apply H; now left|]. apply IH. intros; apply H; now right. Qed.
Section After.
  Context (E : env) (f : val -> val).
  Notation T := (touch E).
  Definition moves (l : list val) : Prop := forall x, In x l -> T x (f x).
  Lemma moves_app : forall l m, moves (l ++ m) -> moves l /\ moves m.
  Proof. intros l m H. split; intros x Hx; apply H; rewrite in_app_iff; auto. Qed.
  Lemma moves_flat : forall A (h : A -> list val) l, moves (flat_map h l) -> forall x, In x l -> moves (h x).
  Proof. intros A h l H x Hx y Hy. apply H. apply in_flat_map. eauto. Qed.
  Lemma mv_pairs : forall l, moves (flat_map pair_vals l) -> Forall2 (pair2 T) l (map (map_pair f) l).
  Proof.
    intros l H. apply Forall2_map_r. intros [a b] Hx. pose proof (moves_flat _ _ _ H _ Hx) as K. split; apply K; simpl; auto.
  Qed.
  Lemma mv_fst : forall B (l : list (val * B)), moves (map fst l) -> Forall2 (fst2 T) l (map (map_fst f) l).
  Proof. intros B l H. apply Forall2_map_r. intros [a b] Hx. split; [|reflexivity]. apply H. apply (in_map fst) in Hx. exact Hx. Qed.
  Lemma mv_list : forall l, moves l -> Forall2 T l (map f l).
  Proof. intros l H. apply Forall2_map_r. exact H. Qed.
  Lemma mv_opt : forall o, moves (opt_vals o) -> opt2 T o (option_map f o).
  Proof. intros [x|] H; constructor. apply H. now left. Qed.
  Lemma mv_out : forall o, moves (out_vals o) -> out2 T o (map_out f o).
  Proof.
    intros [a b c d] H. unfold out_vals in H; cbn [o_file o_fields o_lines o_encl] in H.
    do 3 (apply moves_app in H; let K := fresh in destruct H as [K H]). repeat split; now apply mv_opt.
  Qed.
  Lemma mv_rows : forall l, moves (List.concat l) -> Forall2 (Forall2 T) l (map (map f) l).
  Proof. intros l H. apply Forall2_map_r. intros x Hx. apply mv_list. intros y Hy. apply H. apply in_concat. eauto. Qed.
  Lemma mv_table : forall t, moves (table_vals t) -> table2 E T t (settle_table E f t).
  Proof.
    intros [n a js] H. split; [apply H; simpl; auto|]. split; [apply H; simpl; auto|]. cbn [tb_joins settle_table].
    set (j1 := match minimize (text E) js with Ok m => m | Err _ => js end).
    assert (M : minimised E js j1) by (unfold j1; destruct (minimize (text E) js) eqn:Q; [right; exact Q|left; reflexivity]).
    exists j1, (map (map_join f) j1). split; [exact M|]. split; [|now left].
    apply Forall2_map_r. intros j Hj.
    assert (K : moves (join_vals j)).
    { intros x Hx. apply H. right; right. cbn [tb_joins]. apply (min_vals _ _ _ x M). apply in_flat_map. eauto. }
    destruct j as [ty m b o]. repeat split; [apply K; simpl; auto|apply K; simpl; auto|]. cbn [j_ons map_join]. apply mv_list.
    intros x Hx. apply K. simpl. auto.
  Qed.
  Lemma mv_tables : forall l, moves (flat_map table_vals l) -> Forall2 (table2 E T) l (map (settle_table E f) l).
  Proof. intros l H. apply Forall2_map_r. intros t Ht. apply mv_table. eapply moves_flat; eauto. Qed.
  Lemma mv_sel : forall q, moves (sel_vals q) -> sel2 E T q (settle_sel E f q).
  Proof.
    intros [op c t w g h o l out fu] H. unfold sel_vals in H. cbn [s_cols s_tabs s_where s_group s_having s_order s_out] in H.
    do 6 (apply moves_app in H; let K := fresh in destruct H as [K H]).
    unfold sel2; cbn [settle_sel s_opts s_cols s_tabs s_where s_group s_having s_order s_limit s_out s_forupd].
    split; [reflexivity|]. split; [now apply mv_pairs|]. split; [now apply mv_tables|]. split; [now apply mv_list|].
    split; [now apply mv_fst|]. split; [now apply mv_list|]. split; [now apply mv_fst|]. split; [reflexivity|].
    split; [now apply mv_out|reflexivity].
  Qed.
  Lemma mv_ins : forall q, moves (ins_vals q) -> ins2 E T q (settle_ins E f q).
  Proof.
    intros [rp ig t rows dup cf upd] H. unfold ins_vals in H. cbn [i_tabs i_rows i_dup i_upd] in H.
    do 3 (apply moves_app in H; let K := fresh in destruct H as [K H]).
    unfold ins2; cbn [settle_ins i_replace i_ignore i_tabs i_rows i_dup i_conflict i_upd].
    split; [reflexivity|]. split; [reflexivity|]. split; [now apply mv_tables|]. split; [now apply mv_rows|].
    split; [now apply mv_list|]. split; [reflexivity|now apply mv_list].
  Qed.
  Lemma mv_upd : forall q, moves (upd_vals q) -> upd2 E T q (settle_upd E f q).
  Proof.
    intros [ig t v w al] H. unfold upd_vals in H. cbn [u_tabs u_vals u_where] in H.
    do 2 (apply moves_app in H; let K := fresh in destruct H as [K H]).
    unfold upd2; cbn [settle_upd u_ignore u_tabs u_vals u_where u_allow].
    split; [reflexivity|]. split; [now apply mv_tables|]. split; [now apply mv_list|]. split; [now apply mv_list|reflexivity].
  Qed.
  Lemma mv_del : forall q, moves (del_vals q) -> del2 E T q (settle_del E f q).
  Proof.
    intros [ig t rf w al] H. unfold del_vals in H. cbn [d_tabs d_refs d_where] in H.
    do 2 (apply moves_app in H; let K := fresh in destruct H as [K H]).
    unfold del2; cbn [settle_del d_ignore d_tabs d_refs d_where d_allow].
    split; [reflexivity|]. split; [now apply mv_tables|]. split; [now apply mv_tables|]. split; [now apply mv_list|reflexivity].
  Qed.
End After.
Lemma simple_pj : forall v, simple v -> plainly_joined v.
Proof.
  intros v S. induction S as [v HT HC IH]. constructor; [intros _; now constructor| |exact IH].
  intros t x Ht Hx. apply HC. destruct v; cbn [tables_of children] in *; try contradiction.
  - unfold sel_vals. rewrite !in_app_iff. right; left. apply in_flat_map. exists t. split; [exact Ht|right; now right].
  - unfold ins_vals. rewrite !in_app_iff. left. apply in_flat_map. exists t. split; [exact Ht|right; now right].
  - unfold upd_vals. rewrite !in_app_iff. left. apply in_flat_map. exists t. split; [exact Ht|right; now right].
  - unfold del_vals. rewrite !in_app_iff. apply in_app_iff in Ht. destruct Ht as [Ht|Ht]; [left|right; left];
      apply in_flat_map; exists t; (split; [exact Ht|right; now right]).
Qed.
(** Lists and dictionaries: nothing inside changes. *)
Lemma simple_after : forall E n v, simple v -> after_n E n v = v.
Proof.
  intros E. induction n as [|n IH]; intros v SV; [reflexivity|].
  assert (K : forall x, In x (children v) -> after_n E n x = x) by (intros; apply IH; eapply simple_kids; eauto).
  assert (C : container v -> after_n E (S n) v = v).
  { destruct v; simpl; try contradiction; intros _; f_equal.
    - apply map_same. exact K.
    - apply map_same. intros [a b] Hx. unfold map_pair. f_equal; apply K; cbn [children]; apply in_flat_map; exists (a, b); simpl; auto. }
  assert (M : moves E (after_n E n) (children v)) by (intros x Hx; rewrite K by exact Hx; apply t_same).
  destruct v; try (apply C; exact I); try reflexivity; apply simple_same with (E := E); try exact SV; cbn [after_n]; cbn [children] in M;
    try (constructor; apply M; simpl; auto; fail).
  - constructor. now apply mv_list.
  - constructor. now apply mv_list.
  - constructor. now apply mv_pairs.
  - apply moves_app in M. destruct M as [M1 M]. apply moves_app in M. destruct M as [M2 M3].
    constructor; [now apply mv_pairs|now apply mv_fst|apply M3; now left].
  - constructor. now apply mv_sel.
  - constructor. now apply mv_ins.
  - constructor. now apply mv_upd.
  - constructor. now apply mv_del.
Qed.
Lemma after_touch : forall E n v, plainly_joined v -> touch E v (after_n E n v).
Proof.
  intros E. induction n as [|n IH]; intros v P; [apply t_same|].
  assert (M : moves E (after_n E n) (children v)) by (intros x Hx; apply IH; eapply pj_kids; eauto).
  assert (C : container v -> touch E v (after_n E (S n) v)).
  { intros C. destruct P as [P _ _]. rewrite simple_after by now apply P. apply t_same. }
  destruct v; try (apply C; exact I); try apply t_same; cbn [after_n]; cbn [children] in M;
    try (constructor; apply M; simpl; auto; fail).
  - constructor. now apply mv_list.
  - constructor. now apply mv_list.
  - constructor. now apply mv_pairs.
  - apply moves_app in M. destruct M as [M1 M]. apply moves_app in M. destruct M as [M2 M3].
    constructor; [now apply mv_pairs|now apply mv_fst|apply M3; now left].
  - constructor. now apply mv_sel.
  - constructor. now apply mv_ins.
  - constructor. now apply mv_upd.
  - constructor. now apply mv_del.
Qed.
Lemma after_text : forall E v, plainly_joined v -> text E (after E v) = text E v.
Proof. intros E v P. apply touch_text; [exact P|]. now apply after_touch. Qed.
Lemma after_simple : forall E v, simple v -> after E v = v.
Proof. intros E v S. now apply simple_after. Qed.
