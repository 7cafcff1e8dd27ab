(** str() as an equation: text E v = str_body E (text E) v. *)
From Coq Require Import Lia.
From Verif Require Import Base NumFmt Value Backend Eq Render.
Open Scope nat_scope.

Lemma maxf_le : forall A (f : A -> nat) l x, In x l -> f x <= maxf f l.
Proof.
  intros A f l; induction l as [|y l IH]; simpl; intros x H; [contradiction|].
  destruct H as [->|H]; [|apply IH in H]; lia.
Qed.

Ltac maxes :=
  repeat match goal with
  | H : In ?x ?l |- context [maxf ?f ?l] =>
      pose proof (maxf_le _ f l x H); clear H
  end.

Lemma maxpair_vals : forall (f : val -> nat) p x, In x (pair_vals p) -> f x <= maxpair f p.
Proof. intros f [a b] x; simpl; intuition (subst; lia). Qed.
Lemma maxf_flat : forall A (f : val -> nat) (g : A -> list val) (m : A -> nat) l x,
  (forall y, In y l -> forall z, In z (g y) -> f z <= m y) -> In x (flat_map g l) -> f x <= maxf m l.
Proof.
  intros A f g m l x Hy Hx. apply in_flat_map in Hx. destruct Hx as [y [H1 H2]].
  pose proof (Hy y H1 x H2). pose proof (maxf_le _ m l y H1). lia.
Qed.
Lemma maxjoin_vals : forall (f : val -> nat) j x, In x (join_vals j) -> f x <= maxjoin f j.
Proof.
  intros f [t n a ons] x; unfold join_vals; simpl. intros [<-|[<-|H]]; try lia.
  pose proof (maxf_le _ f ons x H); lia.
Qed.
Lemma maxtable_vals : forall (f : val -> nat) t x, In x (table_vals t) -> f x <= maxtable f t.
Proof.
  intros f [n a js] x; unfold table_vals; simpl. intros [<-|[<-|H]]; try lia.
  eapply (maxf_flat _ f join_vals (maxjoin f)) in H; [lia|]. intros; now apply maxjoin_vals.
Qed.
Lemma maxopt_vals : forall (f : val -> nat) o x, In x (opt_vals o) -> f x <= maxopt f o.
Proof. intros f [a|] x; simpl; intuition (subst; lia). Qed.
Lemma maxfst_vals : forall B (f : val -> nat) (l : list (val * B)) x, In x (map fst l) -> f x <= maxf (maxfst f) l.
Proof.
  intros B f l x H. apply in_map_iff in H. destruct H as [[a b] [<- H]].
  pose proof (maxf_le _ (maxfst f) l _ H). simpl in *. lia.
Qed.
Lemma maxout_vals : forall (f : val -> nat) o x, In x (out_vals o) -> f x <= maxout f o.
Proof.
  intros f [a b c d] x; unfold out_vals; cbn [o_file o_fields o_lines o_encl].
  rewrite !in_app_iff. intros [H|[H|[H|H]]]; apply (maxopt_vals f) in H; unfold maxout; lia.
Qed.
Lemma maxsel_vals : forall (f : val -> nat) q x, In x (sel_vals q) -> f x <= maxsel f q.
Proof.
  intros f [op c t w g h o l out fu] x; unfold sel_vals; cbn [s_cols s_tabs s_where s_group s_having s_order s_out].
  rewrite !in_app_iff. unfold maxsel.
  intros [H|[H|[H|[H|[H|[H|H]]]]]].
  - eapply (maxf_flat _ f pair_vals (maxpair f)) in H; [lia|]. intros; now apply maxpair_vals.
  - eapply (maxf_flat _ f table_vals (maxtable f)) in H; [lia|]. intros; now apply maxtable_vals.
  - apply (maxf_le _ f) in H. lia.
  - apply (maxfst_vals _ f) in H. lia.
  - apply (maxf_le _ f) in H. lia.
  - apply (maxfst_vals _ f) in H. lia.
  - apply (maxout_vals f) in H. lia.
Qed.
Lemma maxins_vals : forall (f : val -> nat) q x, In x (ins_vals q) -> f x <= maxins f q.
Proof.
  intros f [rp ig t rows dup cf upd] x; unfold ins_vals; cbn [i_tabs i_rows i_dup i_upd].
  rewrite !in_app_iff. unfold maxins.
  intros [H|[H|[H|H]]].
  - eapply (maxf_flat _ f table_vals (maxtable f)) in H; [lia|]. intros; now apply maxtable_vals.
  - apply in_concat in H. destruct H as [row [H1 H2]].
    apply (maxf_le _ f) in H2. apply (maxf_le _ (maxf f)) in H1. lia.
  - apply (maxf_le _ f) in H. lia.
  - apply (maxf_le _ f) in H. lia.
Qed.
Lemma maxupd_vals : forall (f : val -> nat) q x, In x (upd_vals q) -> f x <= maxupd f q.
Proof.
  intros f [ig t v w al] x; unfold upd_vals; cbn [u_tabs u_vals u_where].
  rewrite !in_app_iff. unfold maxupd.
  intros [H|[H|H]].
  - eapply (maxf_flat _ f table_vals (maxtable f)) in H; [lia|]. intros; now apply maxtable_vals.
  - apply (maxf_le _ f) in H. lia.
  - apply (maxf_le _ f) in H. lia.
Qed.
Lemma maxdel_vals : forall (f : val -> nat) q x, In x (del_vals q) -> f x <= maxdel f q.
Proof.
  intros f [ig t r w al] x; unfold del_vals; cbn [d_tabs d_refs d_where].
  rewrite !in_app_iff. unfold maxdel.
  intros [H|[H|H]].
  - eapply (maxf_flat _ f table_vals (maxtable f)) in H; [lia|]. intros; now apply maxtable_vals.
  - eapply (maxf_flat _ f table_vals (maxtable f)) in H; [lia|]. intros; now apply maxtable_vals.
  - apply (maxf_le _ f) in H. lia.
Qed.

(** Every sub-value is less deep. *)
Lemma children_depth : forall v x, In x (children v) -> depth x < depth v.
Proof.
  intros v x H.
  destruct v; cbn [children] in H; try contradiction;
    try (simpl in H; destruct H as [<-|H]; [cbn [depth]; lia|]; try contradiction;
         try (destruct H as [<-|H]; [cbn [depth]; lia|contradiction])).
  - apply (maxf_le _ depth) in H. cbn [depth]; lia.
  - eapply (maxf_flat _ depth pair_vals (maxpair depth)) in H; [cbn [depth]; lia|]. intros; now apply maxpair_vals.
  - apply (maxf_le _ depth) in H. cbn [depth]; lia.
  - apply (maxf_le _ depth) in H. cbn [depth]; lia.
  - eapply (maxf_flat _ depth pair_vals (maxpair depth)) in H; [cbn [depth]; lia|]. intros; now apply maxpair_vals.
  - rewrite !in_app_iff in H. cbn [depth]. destruct H as [H|[H|[<-|[]]]]; try lia.
    + eapply (maxf_flat _ depth pair_vals (maxpair depth)) in H; [lia|]. intros; now apply maxpair_vals.
    + apply (maxfst_vals _ depth) in H. lia.
  - apply (maxsel_vals depth) in H. cbn [depth]; lia.
  - apply (maxins_vals depth) in H. cbn [depth]; lia.
  - apply (maxupd_vals depth) in H. cbn [depth]; lia.
  - apply (maxdel_vals depth) in H. cbn [depth]; lia.
Qed.
Lemma depth_pos : forall v, 0 < depth v.
Proof. destruct v; cbn [depth]; lia. Qed.

(** Induction on values through [children]. *)
Lemma val_ind_children : forall P : val -> Prop,
  (forall v, (forall x, In x (children v) -> P x) -> P v) -> forall v, P v.
Proof.
  intros P H. assert (A : forall n v, depth v < n -> P v).
  { induction n as [|n IH]; intros v L; [lia|]. apply H. intros x Hx.
    apply IH. pose proof (children_depth v x Hx). lia. }
  intros v. apply (A (S (depth v))). lia.
Qed.

(** ** Congruence: == and str() depend on the recursive str() only through the
    sub-values. *)
Section Ext.
  Context {A B : Type}.
  Lemma rand_ext : forall x x' y y', x = x' -> y = y' -> rand x y = rand x' y'.
  Proof. intros; now subst. Qed.
  Lemma mapM_ext : forall (f g : A -> res B) l, (forall x, In x l -> f x = g x) -> mapM f l = mapM g l.
  Proof.
    intros f g l; induction l as [|x l IH]; simpl; intros H; [reflexivity|].
    rewrite <- (H x) by now left. rewrite IH; [reflexivity|]. intros; apply H; now right.
  Qed.
  Lemma all2_ext : forall (f g : A -> B -> res bool) l m,
    (forall x y, In x l -> In y m -> f x y = g x y) -> all2 f l m = all2 g l m.
  Proof.
    intros f g l; induction l as [|x l IH]; intros [|y m] H; simpl; try reflexivity.
    rewrite <- H by now left. rewrite (IH m); [reflexivity|]. intros; apply H; now right.
  Qed.
  Lemma list_eq_ext : forall (f g : A -> B -> res bool) l m,
    (forall x y, In x l -> In y m -> f x y = g x y) -> list_eq f l m = list_eq g l m.
  Proof. intros f g l m H. unfold list_eq. now rewrite (all2_ext f g l m H). Qed.
  Lemma anyM_ext : forall (f g : A -> res bool) l, (forall x, In x l -> f x = g x) -> anyM f l = anyM g l.
  Proof.
    intros f g l; induction l as [|x l IH]; simpl; intros H; [reflexivity|].
    rewrite <- (H x) by now left. rewrite IH; [reflexivity|]. intros; apply H; now right.
  Qed.
  Lemma allM_ext : forall (f g : A -> res bool) l, (forall x, In x l -> f x = g x) -> allM f l = allM g l.
  Proof.
    intros f g l; induction l as [|x l IH]; simpl; intros H; [reflexivity|].
    rewrite <- (H x) by now left. rewrite IH; [reflexivity|]. intros; apply H; now right.
  Qed.
End Ext.

Section EqExt.
  Context (f g : val -> val -> res bool).
  Definition agree (l m : list val) := forall x y, In x l -> In y m -> f x y = g x y.
  Lemma agree_app : forall l l' m m', agree (l ++ l') (m ++ m') -> agree l m /\ agree l' m'.
  Proof. intros l l' m m' H; split; intros x y Hx Hy; apply H; rewrite in_app_iff; auto. Qed.
  Lemma pair_eq_ext : forall p q, agree (pair_vals p) (pair_vals q) -> pair_eq f p q = pair_eq g p q.
  Proof.
    intros [a b] [c d] H. simpl. rewrite (H a c), (H b d); simpl; auto.
  Qed.
  Lemma ord_eq_ext : forall p q, f (fst p) (fst q) = g (fst p) (fst q) -> ord_eq f p q = ord_eq g p q.
  Proof. intros [a b] [c d] H. simpl in *. now rewrite H. Qed.
  Lemma opt_eq_ext : forall p q, agree (opt_vals p) (opt_vals q) -> opt_eq f p q = opt_eq g p q.
  Proof. intros [a|] [b|] H; simpl; try reflexivity. apply H; simpl; auto. Qed.
  Lemma agree_list : forall l m, agree l m -> list_eq f l m = list_eq g l m.
  Proof. intros. now apply list_eq_ext. Qed.
  Lemma agree_flat : forall T (h : T -> list val) (F G : T -> T -> res bool) l m,
    (forall x y, agree (h x) (h y) -> F x y = G x y) ->
    agree (flat_map h l) (flat_map h m) -> list_eq F l m = list_eq G l m.
  Proof.
    intros T h F G l m H1 H2. apply list_eq_ext. intros x y Hx Hy. apply H1.
    intros a b Ha Hb. apply H2; apply in_flat_map; eauto.
  Qed.
  Lemma agree_ord : forall l m, agree (map fst l) (map fst m) -> list_eq (ord_eq f) l m = list_eq (ord_eq g) l m.
  Proof.
    intros l m H. apply list_eq_ext. intros x y Hx Hy. apply ord_eq_ext. apply H; now apply in_map.
  Qed.
  Lemma join_eq_ext : forall p q, agree (join_vals p) (join_vals q) -> join_eq f p q = join_eq g p q.
  Proof.
    intros [t n a o] [t' n' a' o'] H. unfold join_vals in H; cbn [j_name j_alias j_ons] in H.
    simpl. rewrite (H n n'), (H a a') by (simpl; auto).
    rewrite (list_eq_ext f g o o'); [reflexivity|]. intros; apply H; simpl; auto.
  Qed.
  Lemma table_eq_ext : forall p q, agree (table_vals p) (table_vals q) -> table_eq f p q = table_eq g p q.
  Proof.
    intros [n a js] [n' a' js'] H. unfold table_vals in H; cbn [tb_name tb_alias tb_joins] in H.
    simpl. rewrite (H n n'), (H a a') by (simpl; auto).
    rewrite (agree_flat _ join_vals (join_eq f) (join_eq g) js js'); [reflexivity|apply join_eq_ext|].
    intros x y Hx Hy; apply H; simpl; auto.
  Qed.
  Lemma out_eq_ext : forall p q, agree (out_vals p) (out_vals q) -> out_eq f p q = out_eq g p q.
  Proof.
    intros [a b c d] [a' b' c' d'] H. unfold out_vals in H; cbn [o_file o_fields o_lines o_encl] in H.
    repeat (apply agree_app in H; let K := fresh in destruct H as [K H]).
    simpl. now rewrite !opt_eq_ext.
  Qed.
  Lemma tables_eq_ext : forall l m, agree (flat_map table_vals l) (flat_map table_vals m) ->
    list_eq (table_eq f) l m = list_eq (table_eq g) l m.
  Proof. intros l m H. apply (agree_flat _ table_vals); [apply table_eq_ext|exact H]. Qed.
  Lemma sel_eq_ext : forall p q, agree (sel_vals p) (sel_vals q) -> sel_eq f p q = sel_eq g p q.
  Proof.
    intros [op c t w gr h o l out fu] [op' c' t' w' gr' h' o' l' out' fu'] H.
    unfold sel_vals in H; cbn [s_cols s_tabs s_where s_group s_having s_order s_out] in H.
    do 6 (apply agree_app in H; let K := fresh in destruct H as [K H]).
    cbn [sel_eq].
    rewrite (agree_flat _ pair_vals (pair_eq f) (pair_eq g) c c'); [|apply pair_eq_ext|assumption].
    rewrite !agree_ord, !agree_list, out_eq_ext, tables_eq_ext by assumption. reflexivity.
  Qed.
  Lemma ins_eq_ext : forall p q, agree (ins_vals p) (ins_vals q) -> ins_eq f p q = ins_eq g p q.
  Proof.
    intros [rp ig t rows dup cf upd] [rp' ig' t' rows' dup' cf' upd'] H.
    unfold ins_vals in H; cbn [i_tabs i_rows i_dup i_upd] in H.
    repeat (apply agree_app in H; let K := fresh in destruct H as [K H]).
    cbn [ins_eq].
    rewrite !agree_list, tables_eq_ext by assumption.
    rewrite (list_eq_ext (list_eq f) (list_eq g) rows rows'); [reflexivity|].
    intros x y Hx Hy. apply agree_list. intros a b Ha Hb. apply H1; apply in_concat; eauto.
  Qed.
  Lemma upd_eq_ext : forall p q, agree (upd_vals p) (upd_vals q) -> upd_eq f p q = upd_eq g p q.
  Proof.
    intros [ig t v w al] [ig' t' v' w' al'] H.
    unfold upd_vals in H; cbn [u_tabs u_vals u_where] in H.
    repeat (apply agree_app in H; let K := fresh in destruct H as [K H]).
    cbn [upd_eq]. now rewrite !agree_list, tables_eq_ext.
  Qed.
  Lemma del_eq_ext : forall p q, agree (del_vals p) (del_vals q) -> del_eq f p q = del_eq g p q.
  Proof.
    intros [ig t r w al] [ig' t' r' w' al'] H.
    unfold del_vals in H; cbn [d_tabs d_refs d_where] in H.
    repeat (apply agree_app in H; let K := fresh in destruct H as [K H]).
    cbn [del_eq]. now rewrite !agree_list, !tables_eq_ext.
  Qed.
End EqExt.

Lemma pyeq_ext : forall (r r' : val -> res str) n,
  (forall x, depth x <= n -> r x = r' x) ->
  forall a b, depth a <= n -> depth b <= n -> pyeq r a b = pyeq r' a b.
Proof.
  intros r r' n Hr a. induction a using val_ind_children.
  intros b Ha Hb.
  assert (IH : forall x y, In x (children a) -> In y (children b) -> pyeq r x y = pyeq r' x y).
  { intros x y Hx Hy. apply H; [exact Hx| |].
    - pose proof (children_depth _ _ Hx). lia.
    - pose proof (children_depth _ _ Hy). lia. }
  assert (IHc : forall x y, In x (children a) -> depth y < depth b -> pyeq r x y = pyeq r' x y).
  { intros x y Hx Hy. apply H; [exact Hx| |lia]. pose proof (children_depth _ _ Hx). lia. }
  destruct a; cbn [pyeq textual_eq];
    try (destruct b; try reflexivity; cbn [is_sql]; now rewrite ?(Hr _ Ha), ?(Hr _ Hb)).
  - (* VSeq *) destruct b; try reflexivity. cbn [children] in IH.
    rewrite (list_eq_ext (pyeq r) (pyeq r') l l0) by auto.
    destruct (seqk_eqb k k0); [reflexivity|]. destruct (is_setk k && is_setk k0); [|reflexivity].
    destruct (Nat.eqb (Datatypes.length l) (Datatypes.length l0)); [|reflexivity].
    apply allM_ext. intros x Hx. apply anyM_ext. intros y Hy. now apply IH.
  - (* VDict *) destruct b; try reflexivity. cbn [children] in IH.
    destruct (Nat.eqb (Datatypes.length l) (Datatypes.length l0)); [|reflexivity].
    apply allM_ext. intros [k v] Hx. apply anyM_ext. intros [k' v'] Hy.
    rewrite (IH k k'), (IH v v'); try reflexivity; apply in_flat_map; eexists; split; eauto; simpl; auto.
  - (* VRel *) destruct b; try reflexivity. now rewrite (IH a b) by (simpl; auto).
  - (* VCond *) destruct b; destruct k; try reflexivity; destruct k0; try reflexivity.
    + rewrite (IH a1 b1), (IH a2 b2) by (simpl; auto). reflexivity.
    + rewrite (IH a1 b1), (IH a2 b2), (IH a2 b1), (IH a1 b2) by (simpl; auto). reflexivity.
  - (* VValue *) destruct b; try reflexivity. now rewrite (IH a1 b1), (IH a2 b2) by (simpl; auto).
  - (* VConds *) destruct b; try reflexivity. apply list_eq_ext. exact IH.
  - (* VSelect *) destruct b; try reflexivity. apply sel_eq_ext. exact IH.
  - (* VUnion *) destruct b; try reflexivity. now rewrite (IH a1 b1), (IH a2 b2) by (simpl; auto).
  - (* VInsert *) destruct b; try reflexivity. apply ins_eq_ext. exact IH.
  - (* VUpdate *) destruct b; try reflexivity. apply upd_eq_ext. exact IH.
  - (* VDelete *) destruct b; try reflexivity. apply del_eq_ext. exact IH.
Qed.

Lemma bind_ext : forall A B (x x' : res A) (k k' : A -> res B),
  x = x' -> (forall a, k a = k' a) -> bind x k = bind x' k'.
Proof. intros A B x x' k k' -> H. destruct x'; simpl; auto. Qed.

Section StrExt.
  Context (E : env) (r r' : val -> res str) (n : nat).
  Context (Hr : forall x, depth x <= n -> r x = r' x).
  Let small (l : list val) := forall x, In x l -> depth x <= n.

  Lemma small_app : forall l m, small (l ++ m) -> small l /\ small m.
  Proof. intros l m H; split; intros x Hx; apply H; rewrite in_app_iff; auto. Qed.
  Lemma small_flat : forall T (h : T -> list val) l, small (flat_map h l) -> forall x, In x l -> small (h x).
  Proof. intros T h l H x Hx y Hy. apply H. apply in_flat_map. eauto. Qed.

  Lemma sqlvalue_ext : forall v, depth v <= n -> sqlvalue E r v = sqlvalue E r' v.
  Proof.
    intros v; induction v using val_ind_children. intros L.
    destruct v; cbn [sqlvalue]; try reflexivity; try (now rewrite (Hr _ L)).
    destruct (truthy (VSeq k l)); [|reflexivity].
    rewrite (mapM_ext (sqlvalue E r) (sqlvalue E r') l); [reflexivity|].
    intros x Hx. apply H; [exact Hx|]. pose proof (children_depth (VSeq k l) x Hx). lia.
  Qed.
  Lemma sqlref_ext : forall v, depth v <= n -> sqlref E r v = sqlref E r' v.
  Proof. intros v L. destruct v; cbn [sqlref is_sql]; try reflexivity; now rewrite (Hr _ L). Qed.
  Lemma aliased_ext : forall p, small (pair_vals p) -> aliased_str E r p = aliased_str E r' p.
  Proof.
    intros [a b] H. simpl. rewrite (sqlref_ext a), (sqlref_ext b) by (apply H; simpl; auto). reflexivity.
  Qed.
  Lemma columns_ext : forall l, small (flat_map pair_vals l) -> columns_str E r l = columns_str E r' l.
  Proof.
    intros l H. unfold columns_str. rewrite (mapM_ext (aliased_str E r) (aliased_str E r') l); [reflexivity|].
    intros x Hx. apply aliased_ext. eapply small_flat; eauto.
  Qed.
  Lemma orders_ext : forall k l, small (map fst l) -> orders_str E r k l = orders_str E r' k l.
  Proof.
    intros k l H. unfold orders_str. rewrite (mapM_ext (order_str E r) (order_str E r') l); [reflexivity|].
    intros [c s] Hx. assert (L : depth c <= n) by (apply H; apply in_map_iff; now exists (c, s)).
    destruct s; simpl; now rewrite (sqlref_ext c L).
  Qed.
  Lemma conds_ext : forall k l, small l -> conds_str r k l = conds_str r' k l.
  Proof.
    intros k l H. unfold conds_str. rewrite (mapM_ext r r' l); [reflexivity|]. intros; apply Hr; now apply H.
  Qed.
  Lemma values_ext : forall k l, small l -> values_str r k l = values_str r' k l.
  Proof.
    intros k l H. unfold values_str. rewrite (mapM_ext r r' l); [reflexivity|]. intros; apply Hr; now apply H.
  Qed.
  Lemma eq_ext : forall a b, depth a <= n -> depth b <= n -> pyeq r a b = pyeq r' a b.
  Proof. intros. now apply (pyeq_ext r r' n). Qed.
  Lemma same_join_ext : forall a b, small (join_vals a) -> small (join_vals b) -> same_join r a b = same_join r' a b.
  Proof.
    intros a b Ha Hb. unfold same_join.
    rewrite (eq_ext (j_name a) (j_name b)), (eq_ext (j_alias a) (j_alias b))
      by (solve [apply Ha; simpl; auto] || (apply Hb; simpl; auto)).
    rewrite (list_eq_ext (pyeq r) (pyeq r') (j_ons a) (j_ons b)); [reflexivity|].
    intros x y Hx Hy. apply eq_ext; [apply Ha|apply Hb]; simpl; auto.
  Qed.
  Lemma group_add_ext : forall j gs, small (join_vals j) -> (forall g, In g gs -> small (join_vals (fst g))) ->
    group_add r j gs = group_add r' j gs.
  Proof.
    intros j gs Hj; induction gs as [|[h t] gs IH]; intros H; simpl; [reflexivity|].
    rewrite (same_join_ext h j); [|apply (H (h, t)); now left|exact Hj].
    rewrite IH; [reflexivity|]. intros; apply H; now right.
  Qed.
  Lemma group_add_heads : forall rr j gs gs', group_add rr j gs = Ok gs' ->
    forall g, In g gs' -> fst g = j \/ In (fst g) (map fst gs).
  Proof.
    intros rr j gs; induction gs as [|[h t] gs IH]; simpl; intros gs' H g Hg.
    - injection H as <-. destruct Hg as [<-|[]]. now left.
    - destruct (same_join rr h j) as [[|]|]; [| |discriminate].
      + injection H as <-. destruct Hg as [<-|Hg]; simpl; [auto|]. right; right. now apply in_map.
      + destruct (group_add rr j gs) as [gs''|]; [|discriminate]. injection H as <-.
        destruct Hg as [<-|Hg]; simpl; [auto|]. destruct (IH gs'' eq_refl g Hg); auto.
  Qed.
  Lemma group_joins_ext : forall js gs, (forall j, In j js -> small (join_vals j)) ->
    (forall g, In g gs -> small (join_vals (fst g))) -> group_joins r js gs = group_joins r' js gs.
  Proof.
    induction js as [|j js IH]; intros gs Hj Hg; simpl; [reflexivity|].
    rewrite <- (group_add_ext j gs); [|apply Hj; now left|exact Hg].
    destruct (group_add r j gs) as [gs'|] eqn:Hgs; [|reflexivity].
    apply IH; [intros; apply Hj; now right|].
    intros g Hin. destruct (group_add_heads r j gs gs' Hgs g Hin) as [->|Hin'].
    - apply Hj; now left.
    - apply in_map_iff in Hin'. destruct Hin' as [g0 [<- Hg0]]. now apply Hg.
  Qed.
  Lemma minimize_ext : forall js, small (flat_map join_vals js) -> minimize r js = minimize r' js.
  Proof.
    intros js H. unfold minimize. f_equal. apply group_joins_ext; [|intros ? []].
    intros j Hj. eapply small_flat; eauto.
  Qed.
End StrExt.

(** Every join rendered after minimisation has the table and the ON conditions of
    a join that was there before. *)
Lemma group_add_members : forall r j gs gs', group_add r j gs = Ok gs' ->
  forall g x, In g gs' -> In x (fst g :: snd g) -> x = j \/ exists g0, In g0 gs /\ In x (fst g0 :: snd g0).
Proof.
  intros r j gs; induction gs as [|[h t] gs IH]; simpl; intros gs' H g x Hg Hx.
  - injection H as <-. destruct Hg as [<-|[]]. destruct Hx as [<-|[]]. now left.
  - destruct (same_join r h j) as [[|]|]; [| |discriminate].
    + injection H as <-. destruct Hg as [<-|Hg].
      * simpl in Hx. rewrite in_app_iff in Hx. destruct Hx as [<-|[Hx|[<-|[]]]].
        -- right. exists (h, t). simpl. auto.
        -- right. exists (h, t). simpl. auto.
        -- now left.
      * right. exists g. auto.
    + destruct (group_add r j gs) as [gs''|]; [|discriminate]. injection H as <-.
      destruct Hg as [<-|Hg].
      * right. exists (h, t). simpl in *. auto.
      * destruct (IH gs'' eq_refl g x Hg Hx) as [->|[g0 [H1 H2]]]; [now left|]. right. exists g0. auto.
Qed.
Lemma group_joins_members : forall r js gs gs', group_joins r js gs = Ok gs' ->
  forall g x, In g gs' -> In x (fst g :: snd g) -> In x js \/ exists g0, In g0 gs /\ In x (fst g0 :: snd g0).
Proof.
  intros r; induction js as [|j js IH]; simpl; intros gs gs' H g x Hg Hx.
  - injection H as <-. right. exists g. auto.
  - destruct (group_add r j gs) as [gs1|] eqn:E1; [|discriminate].
    destruct (IH gs1 gs' H g x Hg Hx) as [Hj|[g0 [H1 H2]]]; [auto|].
    destruct (group_add_members r j gs gs1 E1 g0 x H1 H2) as [->|[g1 [H3 H4]]]; [auto|].
    right. exists g1. auto.
Qed.
Lemma minimize_origin : forall r js js', minimize r js = Ok js' -> forall x, In x js' ->
  exists j, In j js /\ j_name x = j_name j /\ j_alias x = j_alias j /\ j_ons x = j_ons j
            /\ (x = j \/ j_type x = JInner).
Proof.
  intros r js js' H x Hx. unfold minimize in H.
  destruct (group_joins r js []) as [gs|] eqn:G; [|discriminate]. simpl in H. injection H as <-.
  apply in_flat_map in Hx. destruct Hx as [[h t] [Hg Hx]].
  assert (M : forall y, In y (h :: t) -> In y js).
  { intros y Hy. destruct (group_joins_members r js [] gs G (h, t) y Hg Hy) as [Hj|[g0 [[] _]]]. exact Hj. }
  unfold settle_group in Hx.
  destruct (negb (is_nilb t) && existsb is_inner (h :: t)).
  - destruct Hx as [<-|[]]. exists h. simpl. repeat split; auto. apply M; now left.
  - destruct (negb (is_nilb t) && forallb (fun j => jointy_eqb (j_type j) (j_type h)) (h :: t)).
    + destruct Hx as [<-|[]]. exists h. repeat split; auto. apply M; now left.
    + exists x. repeat split; auto.
Qed.

Section StrExt2.
  Context (E : env) (r r' : val -> res str) (n : nat).
  Context (Hr : forall x, depth x <= n -> r x = r' x).
  Let small (l : list val) := forall x, In x l -> depth x <= n.

  Lemma join_str_ext : forall j, small (join_vals j) -> join_str E r j = join_str E r' j.
  Proof.
    intros j H. unfold join_str.
    rewrite (conds_ext r r' n Hr [] (j_ons j)) by (intros x Hx; apply H; simpl; auto).
    rewrite (aliased_ext E r r' n Hr (j_name j, j_alias j)) by (intros x Hx; apply H; simpl in *; tauto).
    reflexivity.
  Qed.
  Lemma table_str_ext : forall t, small (table_vals t) -> table_str E r t = table_str E r' t.
  Proof.
    intros t H. unfold table_str.
    rewrite (aliased_ext E r r' n Hr (tb_name t, tb_alias t)) by (intros x Hx; apply H; simpl in *; tauto).
    destruct (is_nilb (tb_joins t)); [reflexivity|].
    assert (Hj : small (flat_map join_vals (tb_joins t))) by (intros x Hx; apply H; simpl; auto).
    rewrite (minimize_ext r r' n Hr (tb_joins t) Hj).
    apply bind_ext; [reflexivity|]. intros a.
    destruct (minimize r' (tb_joins t)) as [js|] eqn:M; [|reflexivity]. simpl.
    rewrite (mapM_ext (join_str E r) (join_str E r') js); [reflexivity|].
    intros x Hx. apply join_str_ext.
    destruct (minimize_origin r' _ _ M x Hx) as [j [Hin [E1 [E2 [E3 _]]]]].
    intros y Hy. apply Hj. apply in_flat_map. exists j. split; [exact Hin|].
    unfold join_vals in *. now rewrite E1, E2, E3 in Hy.
  Qed.
  Lemma tables_str_ext : forall k l, small (flat_map table_vals l) -> tables_str E r k l = tables_str E r' k l.
  Proof.
    intros k l H. unfold tables_str. rewrite (mapM_ext (table_str E r) (table_str E r') l); [reflexivity|].
    intros x Hx. apply table_str_ext. intros y Hy. apply H. apply in_flat_map. eauto.
  Qed.
  Lemma out_ext : forall o, small (out_vals o) -> out_str E r o = out_str E r' o.
  Proof.
    intros [a b c d] H. unfold out_vals in H; cbn [o_file o_fields o_lines o_encl] in H.
    repeat (apply (small_app n) in H; let K := fresh in destruct H as [K H]).
    unfold out_str; cbn [o_file o_fields o_lines o_encl].
    assert (O : forall k o, small (opt_vals o) -> out_opt E r k o = out_opt E r' k o).
    { intros k [v|] Ho; simpl; [|reflexivity]. rewrite (sqlvalue_ext E r r' n Hr); [reflexivity|].
      apply Ho; simpl; auto. }
    now rewrite !O.
  Qed.
  Lemma part_ctx_ext : forall b t t', t = t' -> part_ctx b t = part_ctx b t'.
  Proof. intros; now subst. Qed.
  Lemma select_ext : forall q, small (sel_vals q) -> select_str E r q = select_str E r' q.
  Proof.
    intros q H. unfold sel_vals in H.
    do 6 (apply (small_app n) in H; let K := fresh in destruct H as [K H]).
    unfold select_str.
    rewrite (columns_ext E r r' n Hr (s_cols q)) by assumption.
    rewrite !(orders_ext E r r' n Hr) by assumption.
    rewrite !(conds_ext r r' n Hr) by assumption.
    rewrite out_ext by assumption.
    rewrite tables_str_ext by assumption. reflexivity.
  Qed.
  Lemma delete_ext : forall q, small (del_vals q) -> delete_str E r q = delete_str E r' q.
  Proof.
    intros q H. unfold del_vals in H.
    do 2 (apply (small_app n) in H; let K := fresh in destruct H as [K H]).
    unfold delete_str.
    rewrite !(conds_ext r r' n Hr) by assumption.
    rewrite !tables_str_ext by assumption. reflexivity.
  Qed.
  Lemma update_ext : forall q, small (upd_vals q) -> update_str E r q = update_str E r' q.
  Proof.
    intros q H. unfold upd_vals in H.
    do 2 (apply (small_app n) in H; let K := fresh in destruct H as [K H]).
    unfold update_str.
    rewrite !(conds_ext r r' n Hr), !(values_ext r r' n Hr) by assumption.
    rewrite !tables_str_ext by assumption. reflexivity.
  Qed.
  Lemma row_value_small : forall row c, 1 <= n -> small row -> depth (row_value row c) <= n.
  Proof.
    intros row c Hn. unfold row_value.
    assert (G : forall l acc, depth acc <= n -> small l ->
      depth (fold_left (fun acc p => match p with
        | VValue (VStr c') v => if seqb c c' then v else acc | _ => acc end) l acc) <= n).
    { induction l as [|x l IH]; simpl; intros acc Ha Hl; [exact Ha|]. apply IH.
      - assert (Hx : depth x <= n) by (apply Hl; now left).
        destruct x; try exact Ha. destruct x1; try exact Ha.
        destruct (seqb c s); [|exact Ha]. cbn [depth] in Hx. lia.
      - intros y Hy. apply Hl. now right. }
    intros H. apply G; [exact Hn|exact H].
  Qed.
  Lemma rows_ext : forall rows, 1 <= n -> small (List.concat rows) -> rows_str E r rows = rows_str E r' rows.
  Proof.
    intros rows Hn H. unfold rows_str. apply bind_ext; [reflexivity|]. intros cols.
    rewrite (mapM_ext (row_str E r cols) (row_str E r' cols) rows); [reflexivity|].
    intros row Hrow. unfold row_str.
    rewrite (mapM_ext _ (fun c => sqlvalue E r' (row_value row c)) cols); [reflexivity|].
    intros c _. apply (sqlvalue_ext E r r' n Hr). apply row_value_small; [exact Hn|].
    intros x Hx. apply H. apply in_concat. eauto.
  Qed.
  Lemma insert_ext : forall q, 1 <= n -> small (ins_vals q) -> insert_str E r q = insert_str E r' q.
  Proof.
    intros q Hn H. unfold ins_vals in H.
    do 3 (apply (small_app n) in H; let K := fresh in destruct H as [K H]).
    unfold insert_str.
    rewrite !(values_ext r r' n Hr), !tables_str_ext, rows_ext by assumption. reflexivity.
  Qed.
  Lemma expr_ext : forall e, depth e <= n -> expr_str E r e = expr_str E r' e.
  Proof.
    intros e He. destruct e; cbn [expr_str]; try (now apply (sqlref_ext E r r' n Hr)).
    assert (S : forall x, In x l -> sqlref E r x = sqlref E r' x).
    { intros x Hx. apply (sqlref_ext E r r' n Hr).
      pose proof (children_depth (VSeq k l) x Hx). lia. }
    destruct k; try (now rewrite (mapM_ext _ _ _ S)); now apply (sqlref_ext E r r' n Hr).
  Qed.
End StrExt2.

Lemma transformer_ext : forall E r r' n k v x, (forall y, depth y <= n -> r y = r' y) -> depth x <= n ->
  transformer E r k v x = transformer E r' k v x.
Proof.
  intros E r r' n k v x Hr Hx. unfold transformer.
  destruct k; [now apply (sqlvalue_ext E r r' n Hr)|].
  destruct v; (now apply (sqlvalue_ext E r r' n Hr)) || (now apply (sqlref_ext E r r' n Hr)).
Qed.

Lemma maxf_filter : forall A (f : A -> nat) p l, maxf f (filter p l) <= maxf f l.
Proof. intros A f p l; induction l as [|x l IH]; simpl; [lia|]. destruct (p x); simpl; lia. Qed.

Lemma str_body_ext : forall E r r' v, (forall x, depth x < depth v -> r x = r' x) ->
  str_body E r v = str_body E r' v.
Proof.
  intros E r r' v H.
  pose proof (depth_pos v) as P.
  set (n := depth v - 1).
  assert (Hr : forall x, depth x <= n -> r x = r' x) by (intros; apply H; lia).
  assert (Hc : forall x, In x (children v) -> depth x <= n)
    by (intros x Hx; apply children_depth in Hx; lia).
  clearbody n. clear H.
  destruct v; cbn [str_body]; try reflexivity.
  - (* VSqlV *) apply (sqlvalue_ext E r r' n Hr). apply Hc; simpl; auto.
  - (* VSqlR *) apply (sqlref_ext E r r' n Hr). apply Hc; simpl; auto.
  - (* VRel *) rewrite Hr by (apply Hc; simpl; auto). reflexivity.
  - (* VCond *)
    assert (H1 : depth v1 <= n) by (apply Hc; simpl; auto).
    assert (H2 : depth v2 <= n) by (apply Hc; simpl; auto).
    rewrite (sqlref_ext E r r' n Hr v1 H1).
    assert (T : forall x, depth x <= n -> transformer E r k v2 x = transformer E r' k v2 x)
      by (intros; now apply (transformer_ext E r r' n)).
    assert (FI : forall l, v2 = VSeq KList l \/ (exists kk, v2 = VSeq kk l) ->
        transformer E r k v2 (VSeq KList (filter (fun x => negb (is_none x)) l))
        = transformer E r' k v2 (VSeq KList (filter (fun x => negb (is_none x)) l))).
    { intros l Hl. apply T. cbn [depth]. pose proof (maxf_filter _ depth (fun x => negb (is_none x)) l) as M.
      destruct Hl as [->|[kk ->]]; cbn [depth] in H2; lia. }
    unfold fmt_condition, fmt_in.
    destruct r0; try (now rewrite (T v2 H2)); (destruct v2; try (now rewrite T by assumption));
      (rewrite (FI l); [reflexivity|right; eauto]).
  - (* VValue *) unfold value_str.
    rewrite (sqlref_ext E r r' n Hr v1), (sqlvalue_ext E r r' n Hr v2) by (apply Hc; simpl; auto). reflexivity.
  - (* VConds *) now apply (conds_ext r r' n Hr).
  - (* VCoC *) rewrite (Hr v1), (Hr v2) by (apply Hc; simpl; auto). reflexivity.
  - (* VNot *) now rewrite (conds_ext r r' n Hr [] ps Hc).
  - (* VExists *) rewrite Hr by (apply Hc; simpl; auto). reflexivity.
  - (* VAgg *)
    assert (H1 : depth v <= n) by (apply Hc; simpl; auto).
    assert (H0 : depth (VStr (lit "*")) <= n) by (pose proof (depth_pos v); cbn [depth]; lia).
    destruct k; cbn [agg_expr]; rewrite ?(eq_ext r r' n Hr v (VStr (lit "*")) H1 H0), (Hr v H1) ||
      idtac; rewrite ?(expr_ext E r r' n Hr v H1); reflexivity.
  - (* VConcat *) now rewrite (columns_ext E r r' n Hr cols Hc).
  - (* VGroupConcat *)
    cbn [children] in Hc.
    assert (C1 : forall x, In x (flat_map pair_vals cols) -> depth x <= n)
      by (intros; apply Hc; rewrite !in_app_iff; auto).
    assert (C2 : forall x, In x (map fst ords) -> depth x <= n)
      by (intros; apply Hc; rewrite !in_app_iff; auto).
    assert (C3 : depth v <= n) by (apply Hc; rewrite !in_app_iff; simpl; auto).
    rewrite (columns_ext E r r' n Hr cols C1), (orders_ext E r r' n Hr _ ords C2), (sqlvalue_ext E r r' n Hr v C3).
    reflexivity.
  - (* VConvert *) rewrite (expr_ext E r r' n Hr v) by (apply Hc; simpl; auto). reflexivity.
  - (* VSelect *) now apply (select_ext E r r' n Hr).
  - (* VUnion *) rewrite (Hr v1), (Hr v2) by (apply Hc; simpl; auto). reflexivity.
  - (* VInsert *)
    destruct n as [|n'].
    + assert (N : ins_vals q = []).
      { destruct (ins_vals q) as [|x l] eqn:Q; [reflexivity|].
        assert (X : depth x <= 0) by (apply Hc; cbn [children]; rewrite Q; now left).
        pose proof (depth_pos x). lia. }
      unfold ins_vals in N.
      apply app_eq_nil in N. destruct N as [N1 N]. apply app_eq_nil in N. destruct N as [N2 N].
      apply app_eq_nil in N. destruct N as [N3 N4].
      assert (N5 : i_tabs q = []).
      { destruct (i_tabs q) as [|[a b c] t]; [reflexivity|]. discriminate. }
      assert (RE : rows_str E r (i_rows q) = rows_str E r' (i_rows q)).
      { unfold rows_str, all_columns. rewrite N2. simpl.
        assert (RR : forall rr rows, mapM (row_str E rr []) rows = Ok (map (fun _ => paren []) rows)).
        { induction rows as [|a rows IHr]; simpl; [reflexivity|]. now rewrite IHr. }
        now rewrite !RR. }
      unfold insert_str. rewrite RE, N3, N4, N5. reflexivity.
    + apply (insert_ext E r r' (S n') Hr); [lia|exact Hc].
  - (* VUpdate *) now apply (update_ext E r r' n Hr).
  - (* VDelete *) now apply (delete_ext E r r' n Hr).
Qed.

Lemma text_n_depth : forall E n v, depth v <= n -> text_n E n v = text E v.
Proof.
  intros E n v. unfold text. revert v.
  assert (G : forall n m v, depth v <= n -> depth v <= m -> text_n E n v = text_n E m v).
  { induction n0 as [|n0 IH]; intros m v H1 H2; [pose proof (depth_pos v); lia|].
    destruct m as [|m]; [pose proof (depth_pos v); lia|].
    cbn [text_n]. apply str_body_ext. intros x Hx. apply IH; lia. }
  intros v H. apply G; lia.
Qed.

(** str() is its body with itself for the recursive calls. *)
Theorem text_unfold : forall E v, text E v = str_body E (text E) v.
Proof.
  intros E v. unfold text at 1. destruct (depth v) as [|d] eqn:D; [pose proof (depth_pos v); lia|].
  cbn [text_n]. apply str_body_ext. intros x Hx. apply text_n_depth. lia.
Qed.
