(** Proofs: building does not depend on the backend. *)
From Coq Require Import Lia.
From Verif Require Import Base BaseFacts NumFmt Value Backend Eq Render RenderFacts ParseArgs Build Queries History
  SpecHistory SpecClauses SpecArgs SpecLists SpecBackends PfHistories PfArgs PfClauses PfStatements PfLists PfClauseText.
Open Scope N_scope.

Lemma textless_leaf : forall v, textual_eq v = false -> children v = [] -> textless v.
Proof. intros v T C. constructor; [exact T| |rewrite C; intros x []]. intros items ->. destruct items as [|[a b] l]; [constructor|discriminate]. Qed.
Lemma textless_child : forall v x, textless v -> In x (children v) -> textless x.
Proof. intros v x [w T D C] I. exact (C x I). Qed.
Lemma textless_pyeq : forall r r' a b, textless a -> textless b -> pyeq r a b = pyeq r' a b.
Proof.
  intros r r' a. induction a as [a H] using val_ind_children. intros b Ta Tb.
  assert (IH : forall x y, In x (children a) -> In y (children b) -> pyeq r x y = pyeq r' x y).
  { intros x y Hx Hy. apply H; [exact Hx|exact (textless_child _ _ Ta Hx)|exact (textless_child _ _ Tb Hy)]. }
  inversion Ta as [a' Xa _ _]; subst a'. inversion Tb as [b' Xb _ _]; subst b'.
  destruct a; cbn [textual_eq] in Xa; try discriminate; cbn [pyeq textual_eq];
    try (destruct b; cbn [textual_eq] in Xb; try discriminate; reflexivity).
  - destruct b; try reflexivity. cbn [children] in IH.
    rewrite (list_eq_ext (pyeq r) (pyeq r') l l0) by auto.
    destruct (seqk_eqb k k0); [reflexivity|]. destruct (is_setk k && is_setk k0); [|reflexivity].
    destruct (Nat.eqb (Datatypes.length l) (Datatypes.length l0)); [|reflexivity].
    apply allM_ext. intros x Hx. apply anyM_ext. intros y Hy. now apply IH.
  - destruct b; try reflexivity. cbn [children] in IH.
    destruct (Nat.eqb (Datatypes.length l) (Datatypes.length l0)); [|reflexivity].
    apply allM_ext. intros [k v] Hx. apply anyM_ext. intros [k' v'] Hy.
    rewrite (IH k k'), (IH v v'); try reflexivity; apply in_flat_map; eexists; split; eauto; simpl; auto.
  - destruct b; try reflexivity. now rewrite (IH a b) by (simpl; auto).
  - destruct b; destruct k; try reflexivity; destruct k0; try reflexivity.
    + rewrite (IH a1 b1), (IH a2 b2) by (simpl; auto). reflexivity.
    + rewrite (IH a1 b1), (IH a2 b2), (IH a2 b1), (IH a1 b2) by (simpl; auto). reflexivity.
  - destruct b; try reflexivity. now rewrite (IH a1 b1), (IH a2 b2) by (simpl; auto).
  - destruct b; try reflexivity. apply list_eq_ext. exact IH.
  - destruct b; try reflexivity. apply sel_eq_ext. exact IH.
  - destruct b; try reflexivity. now rewrite (IH a1 b1), (IH a2 b2) by (simpl; auto).
  - destruct b; try reflexivity. apply ins_eq_ext. exact IH.
  - destruct b; try reflexivity. apply upd_eq_ext. exact IH.
  - destruct b; try reflexivity. apply del_eq_ext. exact IH.
Qed.

(** Two worlds that differ in the backend only. *)
Definition alike (W W' : world) : Prop :=
  (forall a b, textless a -> textless b -> w_eq W a b = w_eq W' a b) /\ forall s, supper (w_env W) s = supper (w_env W') s.
Lemma alike_program : forall E b b', alike (pure_world (with_be E b)) (pure_world (with_be E b')).
Proof. intros E b b'. split; [intros x y Tx Ty; apply textless_pyeq; assumption|reflexivity]. Qed.

Notation TL := (Forall textless).
Ltac tlc := repeat first [assumption | apply Forall_nil | apply Forall_cons].
Lemma tl_str : forall s, textless (VStr s). Proof. intros; now apply textless_leaf. Qed.
Lemma tl_none : textless VNone. Proof. now apply textless_leaf. Qed.
Lemma tl_int : forall s, textless (VInt s). Proof. intros; now apply textless_leaf. Qed.
Lemma tl_seq : forall k l, TL l -> textless (VSeq k l).
Proof. intros k l F. constructor; [reflexivity|discriminate|]. rewrite Forall_forall in F. exact F. Qed.
Lemma seq_tl : forall k l, textless (VSeq k l) -> TL l.
Proof. intros k l T. apply Forall_forall. intros x I. exact (textless_child _ _ T I). Qed.
Lemma dict_tl : forall l, textless (VDict l) -> Forall (fun p => textless (fst p) /\ textless (snd p) /\ is_sql (fst p) = false) l.
Proof.
  intros l T. inversion T as [v _ D C]; subst. specialize (D l eq_refl). rewrite Forall_forall in *. intros [a b] I.
  split; [|split; [|exact (D _ I)]]; apply C; cbn [children]; apply in_flat_map; eexists; (split; [exact I|]); cbn; auto.
Qed.

(** ** Arguments *)
Lemma batch_tl : forall o l b, TL l -> create_batch o l = Ok b -> TL b.
Proof.
  intros o l b F. unfold create_batch. destruct (Nat.ltb _ _); [discriminate|]. intros Q. injection Q as <-.
  apply Forall_app. split; [exact F|]. apply Forall_forall. intros x I. apply repeat_spec in I. subst x. apply tl_none.
Qed.
Lemma list_item_tl : forall o x b, textless x -> parse_list_item o x = Ok b -> TL b.
Proof.
  intros o x b T P. assert (K : TL [x]) by (constructor; [exact T|constructor]).
  unfold parse_list_item in P. destruct x as [| | | | | | | | |k l| | | | | | | | | | | | | | | | | | | | |];
    try (destruct (Nat.eqb (p_min o) 1); [|discriminate]; exact (batch_tl _ _ _ K P)).
  destruct k; try (destruct (Nat.eqb (p_min o) 1); [|discriminate]; exact (batch_tl _ _ _ K P));
    exact (batch_tl _ _ _ (seq_tl _ _ T) P).
Qed.
Lemma mapM_tl : forall A (f : A -> res (list val)) l r, (forall x b, In x l -> f x = Ok b -> TL b) -> mapM f l = Ok r -> Forall TL r.
Proof.
  intros A f. induction l as [|x l IH]; intros r H M; cbn [mapM] in M; [injection M as <-; constructor|].
  destruct (f x) as [b|] eqn:Fx; [|discriminate]. destruct (mapM f l) as [bs|]; [|discriminate]. injection M as <-.
  constructor; [apply (H x); [now left|exact Fx]|]. apply IH; [|reflexivity]. intros y c I. apply H. now right.
Qed.
Lemma parse_list_tl : forall o l r, TL l -> parse_list o l = Ok r -> Forall TL r.
Proof.
  intros o l r F. apply mapM_tl. intros x b I. apply list_item_tl. rewrite Forall_forall in F. auto.
Qed.
Lemma parse_items_tl : forall o l r, Forall (fun p => textless (fst p) /\ textless (snd p)) l -> parse_items o l = Ok r -> Forall TL r.
Proof.
  intros o l r F. apply mapM_tl. intros [a c] b I. rewrite Forall_forall in F. destruct (F _ I) as [Ta Tc].
  apply batch_tl. tlc.
Qed.
Lemma in_oinsert : forall A (lt : A -> A -> bool) x l y, In y (oinsert lt x l) -> y = x \/ In y l.
Proof.
  intros A lt x. induction l as [|z l IH]; intros y; cbn; [intros [H|[]]; auto|].
  destruct (lt z x); cbn; intros [H|H]; auto. destruct (IH _ H); auto.
Qed.
Lemma in_osort : forall A (lt : A -> A -> bool) l y, In y (osort lt l) -> In y l.
Proof.
  intros A lt. induction l as [|z l IH]; intros y; cbn; [auto|]. intros H. apply in_oinsert in H. destruct H; auto.
Qed.
Lemma sort_items_in : forall W l s p, sort_items W l = Ok s -> In p s -> In p l.
Proof.
  intros W l s p. unfold sort_items. destruct l as [|a [|b l]]; [intros Q; injection Q as <-; auto|intros Q; injection Q as <-; auto|].
  remember (a :: b :: l) as items. destruct (mapM _ items) as [ks|]; [|discriminate]. cbn [bind].
  destruct (_ || _); [discriminate|]. destruct (_ || _); [|discriminate]. intros Q I. injection Q as <-.
  apply in_map_iff in I. destruct I as [[k q] [<- I]]. apply in_osort in I. exact (in_combine_r _ _ _ _ I).
Qed.
Lemma sort_kwds_in : forall k p, In p (sort_kwds k) -> exists q, In q k /\ p = (VStr (fst q), snd q).
Proof.
  intros k p I. unfold sort_kwds in I. apply in_map_iff in I. destruct I as [q [<- I]]. apply in_osort in I. eauto.
Qed.
Lemma sort_items_alike : forall W W' l, Forall (fun p => is_sql (fst p) = false) l -> sort_items W l = sort_items W' l.
Proof.
  intros W W' l F. unfold sort_items. destruct l as [|a [|b l]]; try reflexivity. remember (a :: b :: l) as items.
  rewrite (mapM_ext (fun p => dict_key W (fst p)) (fun p => dict_key W' (fst p))); [reflexivity|].
  intros p I. rewrite Forall_forall in F. specialize (F p I). destruct (fst p); cbn [is_sql] in F; try discriminate; reflexivity.
Qed.
Lemma parse_alike : forall W W' o a k, TL a -> parse_args W o a k = parse_args W' o a k.
Proof.
  intros W W' o a k F. unfold parse_args. apply bind_same. intros first. f_equal.
  destruct a as [|x [|y a]]; try reflexivity. inversion F as [|? ? Tx _]; subst.
  destruct x; try reflexivity. destruct (p_dict o); [|reflexivity]. rewrite (sort_items_alike W W'); [reflexivity|].
  apply dict_tl in Tx. rewrite Forall_forall in *. intros p I. apply (Tx p I).
Qed.
Lemma parse_tl : forall W o a k r, textless_args a k -> parse_args W o a k = Ok r -> Forall TL r.
Proof.
  intros W o a k r [Fa Fk] P. unfold parse_args in P. unfold bind in P at 1.
  match type of P with match ?f with _ => _ end = _ => destruct f as [first|] eqn:Pf; [|discriminate] end.
  unfold bind in P at 1. match type of P with match ?f with _ => _ end = _ => destruct f as [second|] eqn:Ps; [|discriminate] end.
  injection P as <-. apply Forall_app. split.
  - clear Ps. destruct a as [|x rest]; [injection Pf as <-; constructor|].
    destruct (_ && _).
    + destruct (create_batch o (x :: rest)) as [b|] eqn:B; [|discriminate]. cbn [bind] in Pf. injection Pf as <-.
      constructor; [exact (batch_tl _ _ _ Fa B)|constructor].
    + inversion Fa as [|? ? Tx Frest]; subst.
      destruct x as [| | | | | | | | |kk l| | | | | | | | | | | | | | | | | | | | |]; try exact (parse_list_tl _ _ _ Fa Pf).
      * destruct kk; try exact (parse_list_tl _ _ _ Fa Pf); destruct rest; try exact (parse_list_tl _ _ _ Fa Pf);
          (destruct (p_list o); [exact (parse_list_tl _ _ _ (seq_tl _ _ Tx) Pf)|exact (parse_list_tl _ _ _ Fa Pf)]).
      * destruct rest; [|exact (parse_list_tl _ _ _ Fa Pf)]. injection Pf as <-. constructor.
  - clear Pf first.
    assert (KW : forall s, (if p_dict o then parse_items o (sort_kwds k) else Err EInvalidArgument) = Ok s -> Forall TL s).
    { intros s. destruct (p_dict o); [|discriminate]. apply parse_items_tl. apply Forall_forall. intros p I.
      apply sort_kwds_in in I. destruct I as [q [I ->]]. rewrite Forall_forall in Fk. split; [apply tl_str|exact (Fk q I)]. }
    destruct a as [|x [|y a]].
    + destruct k; [injection Ps as <-; constructor|exact (KW _ Ps)].
    + destruct x as [| | | | | | | | | |items| | | | | | | | | | | | | | | | | | | |];
        try (destruct k; [injection Ps as <-; constructor|exact (KW _ Ps)]).
      destruct (p_dict o); [|discriminate]. destruct (sort_items W items) as [s|] eqn:S; [|discriminate]. cbn [bind] in Ps.
      revert Ps. apply parse_items_tl. apply Forall_forall. intros p I. apply (sort_items_in _ _ _ _ S) in I.
      inversion Fa as [|? ? Tx _]; subst. apply dict_tl in Tx. rewrite Forall_forall in Tx. destruct (Tx p I) as [? [? _]]. auto.
    + destruct x as [| | | | | | | | | |items| | | | | | | | | | | | | | | | | | | |];
        (destruct k; [injection Ps as <-; constructor|exact (KW _ Ps)]).
Qed.
Lemma nth2_tl : forall b, TL b -> textless (fst (nth2 b)) /\ textless (snd (nth2 b)).
Proof.
  intros b F. destruct b as [|x [|y [|z b]]]; cbn; try (split; apply tl_none).
  inversion F as [|? ? ? F']; subst. inversion F'; subst. auto.
Qed.

(** ** Loops *)
Lemma foldE_alike : forall S A (f g : S -> A -> S * outcome) (I : S -> Prop) (P : A -> Prop),
  (forall s x, I s -> P x -> f s x = g s x /\ I (fst (f s x))) ->
  forall l s, I s -> Forall P l -> foldE f s l = foldE g s l /\ I (fst (foldE f s l)).
Proof.
  intros S A f g I P H. induction l as [|x l IH]; intros s Is F; [split; [reflexivity|exact Is]|].
  inversion F as [|? ? Px Fl]; subst. destruct (H s x Is Px) as [E Is']. cbn [foldE]. rewrite <- E.
  destruct (f s x) as [s' [u|e]]; cbn [fst] in *; [apply IH; assumption|split; [reflexivity|exact Is']].
Qed.
Lemma append_alike : forall A (eq eq' : A -> A -> res bool) (I : A -> Prop), (forall a b, I a -> I b -> eq a b = eq' a b) ->
  forall ps x, Forall I ps -> I x -> append_unique eq ps x = append_unique eq' ps x /\
    forall ps', append_unique eq ps x = Ok ps' -> Forall I ps'.
Proof.
  intros A eq eq' I H ps x F Ix. unfold append_unique. rewrite (anyM_ext (fun p => eq p x) (fun p => eq' p x)).
  - split; [reflexivity|]. destruct (anyM _ ps) as [[|]|]; cbn [bind]; intros ps' Q; try discriminate; injection Q as <-; [exact F|].
    apply Forall_app. auto.
  - intros p Ip. rewrite Forall_forall in F. auto.
Qed.

(** ** Conditions *)
Lemma py_list_tl : forall v l, textless v -> py_list v = Some l -> TL l.
Proof.
  intros v l T. destruct v as [| | | | |s|b| | |k m|m| | | | | | | | | | | | | | | | | | | |]; cbn [py_list]; intros Q; try discriminate; injection Q as <-.
  - apply Forall_forall. intros x I. apply in_map_iff in I. destruct I as [c [<- _]]. apply tl_str.
  - apply Forall_forall. intros x I. apply in_map_iff in I. destruct I as [c [<- _]]. apply tl_int.
  - exact (seq_tl _ _ T).
  - apply dict_tl in T. rewrite Forall_forall in *. intros x I. apply in_map_iff in I. destruct I as [p [<- I]]. apply (T p I).
Qed.
Lemma mk_rel_tl : forall k v x, textless v -> mk_rel k v = Ok x -> textless x.
Proof.
  intros k v x T. unfold mk_rel.
  match goal with |- (if check_type _ ?w then _ else _) = _ -> _ => assert (Tw : textless w) end.
  { destruct k; try exact T; (destruct (py_list v) as [l|] eqn:L; [apply tl_seq; exact (py_list_tl _ _ T L)|exact T]). }
  destruct (check_type _ _); [|discriminate]. intros Q. injection Q as <-.
  constructor; [reflexivity|discriminate|]. cbn [children]. intros y [<-|[]]. exact Tw.
Qed.
Lemma mk_condition_tl : forall k c v x, textless c -> textless v -> mk_condition k c v = Ok x -> textless x.
Proof.
  intros k c v x Tc Tv. unfold mk_condition. destruct (negb _); [discriminate|]. destruct (negb _); [discriminate|].
  destruct (match v with VRel _ _ => Ok v | _ => mk_rel (default_rel v) v end) as [rel|] eqn:R; [|discriminate]. cbn [bind].
  assert (Tr : textless rel).
  { destruct v; try exact (mk_rel_tl _ _ _ Tv R). injection R as <-. exact Tv. }
  destruct rel; try discriminate. intros Q. injection Q as <-. constructor; [reflexivity|discriminate|].
  cbn [children]. intros y [<-|[<-|[]]]; [exact Tc|]. apply (textless_child _ _ Tr). now left.
Qed.
Lemma where_alike : forall W W' k ps a kw, alike W W' -> TL ps -> textless_args a kw ->
  conds_where W k ps a kw = conds_where W' k ps a kw /\ TL (fst (conds_where W k ps a kw)).
Proof.
  intros W W' k ps a kw [AE _] Fp Fa.
  assert (N : let body W := match parse_args W pair_opts a kw with
           | Err e => (ps, Err e)
           | Ok items =>
               foldE (fun s it => let (c, v) := nth2 it in
                        commit s (do x <- mk_condition k c v; append_unique (w_eq W) s x)) ps items
           end in body W = body W' /\ TL (fst (body W))).
  { cbv zeta beta. rewrite <- (parse_alike W W' pair_opts a kw) by apply Fa.
    destruct (parse_args W pair_opts a kw) as [items|] eqn:P; [|split; [reflexivity|exact Fp]].
    apply (foldE_alike _ _ _ _ (Forall textless) (Forall textless)); [|exact Fp|exact (parse_tl _ _ _ _ _ Fa P)].
    intros s it Fs Fi. destruct (nth2_tl it Fi) as [Tc Tv]. destruct (nth2 it) as [c v]. cbn [fst snd] in *.
    destruct (mk_condition k c v) as [x|] eqn:M; cbn [bind commit]; [|split; [reflexivity|exact Fs]].
    destruct (append_alike _ (w_eq W) (w_eq W') textless AE s x Fs (mk_condition_tl _ _ _ _ Tc Tv M)) as [<- K].
    split; [reflexivity|]. destruct (append_unique (w_eq W) s x) as [s'|]; [exact (K s' eq_refl)|exact Fs]. }
  assert (O : let body W := foldE (fun s x => commit s (append_unique (w_eq W) s x)) ps a in body W = body W' /\ TL (fst (body W))).
  { cbv zeta beta. apply (foldE_alike _ _ _ _ (Forall textless) textless); [|exact Fp|apply Fa].
    intros s x Fs Tx. destruct (append_alike _ (w_eq W) (w_eq W') textless AE s x Fs Tx) as [<- K].
    split; [reflexivity|]. destruct (append_unique (w_eq W) s x) as [s'|]; [exact (K s' eq_refl)|exact Fs]. }
  unfold conds_where. destruct a as [|x [|y a]]; [destruct (_ && _); assumption| |destruct (_ && _); assumption].
  destruct kw; [|destruct (_ && _); assumption]. destruct (is_sql x); [|exact N]. split; [reflexivity|].
  apply Forall_app. split; [exact Fp|apply Fa].
Qed.

(** ** Columns, orders, tables, values *)
Definition tl2 (p : val * val) : Prop := textless (fst p) /\ textless (snd p).
Lemma columns_alike : forall W W' cs a kw, alike W W' -> Forall tl2 cs -> textless_args a kw ->
  columns_add W cs a kw = columns_add W' cs a kw /\ Forall tl2 (fst (columns_add W cs a kw)).
Proof.
  intros W W' cs a kw [AE _] Fc Fa. unfold columns_add. rewrite <- (parse_alike W W' alias_opts a kw) by apply Fa.
  destruct (parse_args W alias_opts a kw) as [items|] eqn:P; [|split; [reflexivity|exact Fc]].
  apply (foldE_alike _ _ _ _ (Forall tl2) (Forall textless)); [|exact Fc|exact (parse_tl _ _ _ _ _ Fa P)].
  intros s it Fs Fi. destruct (nth2_tl it Fi) as [Tc Tv]. destruct (nth2 it) as [c v]. cbn [fst snd] in *.
  unfold mk_column. destruct (negb _); [split; [reflexivity|exact Fs]|]. destruct (negb _); [split; [reflexivity|exact Fs]|]. cbn [bind].
  destruct (append_alike _ (pair_eq (w_eq W)) (pair_eq (w_eq W')) tl2) with (ps := s) (x := (c, v)) as [<- K];
    [intros [p q] [p' q'] [? ?] [? ?]; cbn [pair_eq fst snd] in *; rewrite !AE by assumption; reflexivity|exact Fs|split; assumption|].
  split; [reflexivity|]. destruct (append_unique (pair_eq (w_eq W)) s (c, v)) as [s'|]; [exact (K s' eq_refl)|exact Fs].
Qed.
Definition tl1 (p : val * sortd) : Prop := textless (fst p).
Lemma sort_alike : forall W W' v, alike W W' -> mk_sort (w_env W) v = mk_sort (w_env W') v.
Proof. intros W W' v [_ U]. unfold mk_sort. destruct (negb _); [reflexivity|]. destruct v; try reflexivity. rewrite U. reflexivity. Qed.
Lemma update_alike : forall W W' os c s, alike W W' -> Forall tl1 os -> textless c ->
  order_update W os c s = order_update W' os c s /\ forall os', order_update W os c s = Ok (Some os') -> Forall tl1 os'.
Proof.
  intros W W' os c s A F Tc. induction F as [|[c' s'] os Tx F IH]; [split; [reflexivity|discriminate]|].
  cbn [order_update]. rewrite (proj1 A c' c Tx Tc). destruct (w_eq W' c' c) as [[|]|]; [| |split; [reflexivity|discriminate]].
  - rewrite (sort_alike _ _ s A). destruct (mk_sort _ s); cbn [bind]; (split; [reflexivity|]); [|discriminate].
    intros os' Q. injection Q as <-. constructor; assumption.
  - destruct IH as [IH1 IH2]. rewrite <- IH1. destruct (order_update W os c s) as [[o|]|]; cbn [bind]; (split; [reflexivity|]); try discriminate.
    intros os' Q. injection Q as <-. constructor; [exact Tx|]. apply IH2. reflexivity.
Qed.
Lemma orders_alike : forall W W' os a kw, alike W W' -> Forall tl1 os -> textless_args a kw ->
  orders_add W os a kw = orders_add W' os a kw /\ Forall tl1 (fst (orders_add W os a kw)).
Proof.
  intros W W' os a kw A Fc Fa. unfold orders_add. rewrite <- (parse_alike W W' alias_opts a kw) by apply Fa.
  destruct (parse_args W alias_opts a kw) as [items|] eqn:P; [|split; [reflexivity|exact Fc]].
  apply (foldE_alike _ _ _ _ (Forall tl1) (Forall textless)); [|exact Fc|exact (parse_tl _ _ _ _ _ Fa P)].
  intros s it Fs Fi. destruct (nth2_tl it Fi) as [Tc Tv]. destruct (nth2 it) as [c v]. cbn [fst snd] in *.
  destruct (update_alike W W' s c v A Fs Tc) as [<- K].
  destruct (order_update W s c v) as [[o|]|]; cbn [bind].
  - split; [reflexivity|]. exact (K o eq_refl).
  - destruct (negb _); [split; [reflexivity|exact Fs]|]. rewrite (sort_alike _ _ v A).
    destruct (mk_sort _ v); cbn [bind]; (split; [reflexivity|]); [|exact Fs]. cbn. apply Forall_app. split; [exact Fs|]. constructor; [exact Tc|constructor].
  - split; [reflexivity|exact Fs].
Qed.
Definition tlj (j : join val) : Prop := TL (join_vals j).
Definition tlt (t : table val) : Prop := TL (table_vals t).
Lemma tables_alike : forall W W' ts a kw, alike W W' -> Forall tlt ts -> textless_args a kw ->
  tables_set W ts a kw = tables_set W' ts a kw /\ Forall tlt (fst (tables_set W ts a kw)).
Proof.
  intros W W' ts a kw A Ft [Fa Fk]. unfold tables_set.
  assert (Fa' : textless_args (filter truthy a) kw).
  { split; [|exact Fk]. rewrite Forall_forall in *. intros x I. apply filter_In in I. apply Fa, I. }
  rewrite <- (parse_alike W W' alias_opts (filter truthy a) kw) by apply Fa'.
  destruct (parse_args W alias_opts (filter truthy a) kw) as [items|] eqn:P; [|split; [reflexivity|exact Ft]].
  apply (foldE_alike _ _ _ _ (Forall tlt) (Forall textless)); [|exact Ft|exact (parse_tl _ _ _ _ _ Fa' P)].
  intros s it Fs Fi. destruct (nth2_tl it Fi) as [Tc Tv]. destruct (nth2 it) as [c v]. cbn [fst snd] in *.
  unfold mk_table. destruct (negb _); [split; [reflexivity|exact Fs]|]. destruct (negb _); [split; [reflexivity|exact Fs]|]. cbn [bind fst snd].
  destruct (append_alike _ (table_eq (w_eq W)) (table_eq (w_eq W')) tlt) with (ps := s) (x := MkTable c v []) as [<- K].
  - intros p q Tp Tq. apply table_eq_ext. intros x y Ix Iy. unfold tlt in *. rewrite Forall_forall in *. apply A; auto.
  - exact Fs.
  - tlc.
  - split; [reflexivity|]. destruct (append_unique (table_eq (w_eq W)) s (MkTable c v [])) as [s'|]; [exact (K s' eq_refl)|exact Fs].
Qed.
Lemma upd_last_alike : forall A (f g : A -> A * outcome) (I : A -> Prop), (forall x, I x -> fst (f x) = fst (g x) /\ I (fst (f x))) ->
  forall l, Forall I l ->
  match upd_last f l, upd_last g l with
  | Some (a, _), Some (b, _) => a = b /\ Forall I a
  | None, None => True
  | _, _ => False end.
Proof.
  intros A f g I H l F. induction F as [|x l Ix F IH]; [exact Logic.I|]. destruct l as [|y l].
  - cbn. destruct (H x Ix) as [E J]. destruct (f x), (g x). cbn [fst] in *. subst. split; [reflexivity|]. constructor; [exact J|constructor].
  - change (upd_last f (x :: y :: l)) with (match upd_last f (y :: l) with Some (r', b) => Some (x :: r', b) | None => None end).
    change (upd_last g (x :: y :: l)) with (match upd_last g (y :: l) with Some (r', b) => Some (x :: r', b) | None => None end).
    destruct (upd_last f (y :: l)) as [[a ?]|], (upd_last g (y :: l)) as [[b ?]|]; auto.
    destruct IH as [-> J]. split; [reflexivity|]. constructor; assumption.
Qed.
Lemma on_last_alike : forall f g, (forall t, tlt t -> fst (f t) = fst (g t) /\ tlt (fst (f t))) -> forall ts, Forall tlt ts ->
  fst (on_last_table f ts) = fst (on_last_table g ts) /\ Forall tlt (fst (on_last_table f ts)).
Proof.
  intros f g H ts F. unfold on_last_table. pose proof (upd_last_alike _ f g tlt H ts F) as U.
  destruct (upd_last f ts) as [[a ?]|], (upd_last g ts) as [[b ?]|]; try contradiction; [|split; [reflexivity|exact F]].
  destruct U as [-> J]. split; [reflexivity|exact J].
Qed.
Lemma target_tl : forall W arg x, textless arg -> join_target W arg = Ok x -> textless (fst x) /\ textless (snd x).
Proof.
  intros W arg x T J.
  assert (MK : forall n a, textless n -> textless a -> mk_table n a = Ok x -> textless (fst x) /\ textless (snd x)).
  { intros n a Tn Ta. unfold mk_table. destruct (negb _); [discriminate|]. destruct (negb _); [discriminate|]. intros Q. injection Q as <-. auto. }
  destruct arg as [| | | | |s| | | |k l|l| | | | | | | | | | | | | | | | | | | |]; cbn [join_target] in J;
    try (destruct (w_str W _); discriminate).
  - exact (MK _ _ T tl_none J).
  - pose proof (seq_tl _ _ T) as F. destruct k; try (destruct (w_str W _); discriminate);
      (destruct l as [|n [|a [|z l]]]; try (destruct (w_str W _); discriminate);
       inversion F as [|? ? Tn F']; subst; inversion F' as [|? ? Ta _]; subst; exact (MK _ _ Tn Ta J)).
  - apply dict_tl in T. destruct l as [|[n a] [|z l]]; try (destruct (w_str W _); discriminate).
    inversion T as [|? ? [Tn [Ta _]] _]; subst. exact (MK _ _ Tn Ta J).
Qed.
Lemma target_alike : forall W W' arg x, join_target W arg = Ok x <-> join_target W' arg = Ok x.
Proof.
  intros W W' arg x. destruct arg as [| | | | |s| | | |k l|l| | | | | | | | | | | | | | | | | | | |]; cbn [join_target];
    try (destruct (w_str W _), (w_str W' _); split; discriminate); try reflexivity.
  - destruct k; try (destruct (w_str W _), (w_str W' _); split; discriminate);
      (destruct l as [|n [|a [|z l]]]; try (destruct (w_str W _), (w_str W' _); split; discriminate); reflexivity).
  - destruct l as [|[n a] [|z l]]; try (destruct (w_str W _), (w_str W' _); split; discriminate). reflexivity.
Qed.
Lemma join_alike : forall W W' ty ts arg, ty <> JFull -> Forall tlt ts -> textless arg ->
  fst (tables_join W ty ts arg) = fst (tables_join W' ty ts arg) /\ Forall tlt (fst (tables_join W ty ts arg)).
Proof.
  intros W W' ty ts arg N F T.
  assert (K : fst (on_last_table (table_join W ty arg) ts) = fst (on_last_table (table_join W' ty arg) ts) /\
              Forall tlt (fst (on_last_table (table_join W ty arg) ts))).
  { apply on_last_alike; [|exact F]. intros t Tt. unfold table_join. pose proof (target_alike W W' arg) as TA.
    destruct (join_target W arg) as [x|] eqn:J.
    - rewrite (proj1 (TA x) eq_refl). cbn [bind commit fst]. split; [reflexivity|]. destruct (target_tl _ _ _ T J) as [Tn Ta].
      unfold tlt, table_vals in *. cbn [tb_name tb_alias tb_joins] in *. inversion Tt as [|? ? T1 Tt']; subst. inversion Tt' as [|? ? T2 Tt'']; subst.
      constructor; [exact T1|]. constructor; [exact T2|]. rewrite flat_map_app. apply Forall_app. split; [exact Tt''|]. tlc.
    - destruct (join_target W' arg) as [x|] eqn:J'; [discriminate (proj2 (TA x) eq_refl)|]. cbn. split; [reflexivity|exact Tt]. }
  destruct ty; try exact K. destruct N; reflexivity.
Qed.
Lemma on_alike : forall W W' ts a kw, alike W W' -> Forall tlt ts -> textless_args a kw ->
  fst (tables_on W ts a kw) = fst (tables_on W' ts a kw) /\ Forall tlt (fst (tables_on W ts a kw)).
Proof.
  intros W W' ts a kw A F Fa. apply on_last_alike; [|exact F]. intros t Tt. unfold table_on.
  assert (Tj : Forall tlj (tb_joins t)).
  { unfold tlt, table_vals in Tt. inversion Tt as [|? ? _ Tt']; subst. inversion Tt' as [|? ? _ Tt'']; subst.
    apply Forall_forall. intros j I. rewrite Forall_forall in Tt''. apply Forall_forall. intros x Ix. apply Tt'', in_flat_map. eauto. }
  pose proof (upd_last_alike _
    (fun j => let (ons, o) := conds_where W KOn (j_ons j) a kw in (MkJoin (j_type j) (j_name j) (j_alias j) ons, o))
    (fun j => let (ons, o) := conds_where W' KOn (j_ons j) a kw in (MkJoin (j_type j) (j_name j) (j_alias j) ons, o)) tlj) as U.
  assert (H : forall x, tlj x ->
    fst (let (ons, o) := conds_where W KOn (j_ons x) a kw in (MkJoin (j_type x) (j_name x) (j_alias x) ons, o)) =
    fst (let (ons, o) := conds_where W' KOn (j_ons x) a kw in (MkJoin (j_type x) (j_name x) (j_alias x) ons, o)) /\
    tlj (fst (let (ons, o) := conds_where W KOn (j_ons x) a kw in (MkJoin (j_type x) (j_name x) (j_alias x) ons, o)))).
  { intros [ty n al ons] Tx. unfold tlj, join_vals in Tx. cbn [j_type j_name j_alias j_ons] in *.
    inversion Tx as [|? ? T1 Tx']; subst. inversion Tx' as [|? ? T2 Tx'']; subst.
    destruct (where_alike W W' KOn ons a kw A Tx'' Fa) as [<- J]. split; [reflexivity|].
    destruct (conds_where W KOn ons a kw) as [ons' o]. cbn [fst] in *. tlc. }
  specialize (U H _ Tj). clear H.
  destruct (upd_last _ (tb_joins t)) as [[js1 o1]|]; destruct (upd_last _ (tb_joins t)) as [[js2 o2]|]; try contradiction; [|split; [reflexivity|exact Tt]].
  destruct U as [-> J]. cbn [fst]. split; [reflexivity|]. unfold tlt, table_vals in *. cbn [tb_name tb_alias tb_joins].
  inversion Tt as [|? ? T1 Tt']; subst. inversion Tt' as [|? ? T2 Tt'']; subst. constructor; [exact T1|]. constructor; [exact T2|].
  apply Forall_forall. intros x I. apply in_flat_map in I. destruct I as [j [Ij I]]. rewrite Forall_forall in J. specialize (J j Ij).
  unfold tlj in J. rewrite Forall_forall in J. auto.
Qed.
Lemma values_alike : forall W W' ps a kw, alike W W' -> TL ps -> textless_args a kw ->
  values_set W ps a kw = values_set W' ps a kw /\ TL (fst (values_set W ps a kw)).
Proof.
  intros W W' ps a kw [AE _] Fp Fa. unfold values_set.
  assert (N : let body W := match parse_args W pair_opts a kw with
           | Err e => (ps, Err e)
           | Ok items =>
               foldE (fun s it => let (c, v) := nth2 it in
                        commit s (do x <- mk_value c v; append_unique (w_eq W) s x)) ps items
           end in body W = body W' /\ TL (fst (body W))).
  { cbv zeta beta. rewrite <- (parse_alike W W' pair_opts a kw) by apply Fa.
    destruct (parse_args W pair_opts a kw) as [items|] eqn:P; [|split; [reflexivity|exact Fp]].
    apply (foldE_alike _ _ _ _ (Forall textless) (Forall textless)); [|exact Fp|exact (parse_tl _ _ _ _ _ Fa P)].
    intros s it Fs Fi. destruct (nth2_tl it Fi) as [Tc Tv]. destruct (nth2 it) as [c v]. cbn [fst snd] in *.
    unfold mk_value. destruct (negb _); [split; [reflexivity|exact Fs]|]. destruct (negb _); [split; [reflexivity|exact Fs]|]. cbn [bind].
    assert (Tx : textless (VValue c v)).
    { constructor; [reflexivity|discriminate|]. cbn [children]. intros y [<-|[<-|[]]]; assumption. }
    destruct (append_alike _ (w_eq W) (w_eq W') textless AE s _ Fs Tx) as [<- K].
    split; [reflexivity|]. destruct (append_unique (w_eq W) s (VValue c v)) as [s'|]; [exact (K s' eq_refl)|exact Fs]. }
  destruct a as [|x [|y a]]; try exact N. destruct kw; [|exact N]. destruct (is_sql x); [|exact N]. split; [reflexivity|].
  apply Forall_app. split; [exact Fp|apply Fa].
Qed.

(** ** Queries *)
Definition tl_sel (q : selq val) : Prop :=
  Forall tl2 (s_cols q) /\ Forall tlt (s_tabs q) /\ TL (s_where q) /\ Forall tl1 (s_group q) /\ TL (s_having q) /\ Forall tl1 (s_order q).
Lemma sel_alike : forall W W' q op, alike W W' -> tl_sel q -> textless_sel op ->
  fst (sel_step W q op) = fst (sel_step W' q op) /\ tl_sel (fst (sel_step W q op)).
Proof.
  intros W W' q op A [I1 [I2 [I3 [I4 [I5 I6]]]]] T.
  destruct op; cbn [textless_sel] in T; cbn [sel_step]; unfold lift1; cbn [fst].
  - destruct (columns_alike W W' (s_cols q) args kwds A I1 T) as [<- J]. split; [reflexivity|]. repeat split; assumption.
  - destruct (tables_alike W W' (s_tabs q) args kwds A I2 T) as [<- J]. split; [reflexivity|]. repeat split; assumption.
  - destruct T as [Tt Ta]. destruct (tables_alike W W' (s_tabs q) [VSeq KTuple [t; a]] [] A I2) as [<- J].
    { split; [|constructor]. constructor; [|constructor]. apply tl_seq. tlc. }
    split; [reflexivity|]. repeat split; assumption.
  - destruct T as [N T]. destruct (join_alike W W' ty (s_tabs q) arg N I2 T) as [<- J]. split; [reflexivity|]. repeat split; assumption.
  - destruct (on_alike W W' (s_tabs q) args kwds A I2 T) as [<- J]. split; [reflexivity|]. repeat split; assumption.
  - destruct (where_alike W W' KWhere (s_where q) args kwds A I3 T) as [<- J]. split; [reflexivity|]. repeat split; assumption.
  - destruct (where_alike W W' KWhere (s_having q) args kwds A I5 T) as [<- J]. split; [reflexivity|]. repeat split; assumption.
  - destruct (orders_alike W W' (s_group q) args kwds A I4 T) as [<- J]. split; [reflexivity|]. repeat split; assumption.
  - destruct (orders_alike W W' (s_order q) args kwds A I6 T) as [<- J]. split; [reflexivity|]. repeat split; assumption.
  - split; [reflexivity|]. repeat split; assumption.
  - split; [reflexivity|]. repeat split; assumption.
  - split; [reflexivity|]. repeat split; assumption.
  - split; [reflexivity|]. repeat split; assumption.
  - split; [reflexivity|]. repeat split; assumption.
Qed.
Definition tl_upd (q : updq val) : Prop := Forall tlt (u_tabs q) /\ TL (u_vals q) /\ TL (u_where q).
Lemma one_arg : forall v, textless v -> textless_args [v] [].
Proof. intros v T. split; [tlc|constructor]. Qed.
Lemma j3_full : forall t, j3 t <> JFull.
Proof. intros []; discriminate. Qed.
Lemma upd_alike : forall W W' q op, alike W W' -> tl_upd q -> textless_upd op ->
  fst (upd_step W q op) = fst (upd_step W' q op) /\ tl_upd (fst (upd_step W q op)).
Proof.
  intros W W' [ig tabs vals wh al] op A [I1 [I2 I3]] T. cbn [u_tabs u_vals u_where] in *.
  destruct op; cbn [textless_upd] in T; cbn [upd_step]; unfold lift1; cbn [fst].
  - destruct (tables_alike W W' tabs [t] [] A I1 (one_arg _ T)) as [<- J]. split; [reflexivity|]. split; [exact J|split; assumption].
  - destruct (values_alike W W' vals args kwds A I2 T) as [<- J]. split; [reflexivity|]. split; [assumption|split; assumption].
  - destruct (where_alike W W' KWhere wh args kwds A I3 T) as [<- J]. split; [reflexivity|]. split; [assumption|split; assumption].
  - destruct (join_alike W W' (j3 ty) tabs arg (j3_full _) I1 T) as [<- J]. split; [reflexivity|]. split; [assumption|split; assumption].
  - destruct (on_alike W W' tabs args kwds A I1 T) as [<- J]. split; [reflexivity|]. split; [assumption|split; assumption].
  - split; [reflexivity|]. split; [assumption|split; assumption].
  - split; [reflexivity|]. split; [assumption|split; assumption].
  - split; [reflexivity|]. split; [assumption|split; assumption].
Qed.
Definition tl_del (q : delq val) : Prop := Forall tlt (d_tabs q) /\ Forall tlt (d_refs q) /\ TL (d_where q).
Lemma del_alike : forall W W' q op, alike W W' -> tl_del q -> textless_del op ->
  fst (del_step W q op) = fst (del_step W' q op) /\ tl_del (fst (del_step W q op)).
Proof.
  intros W W' [ig tabs refs wh al] op A [I1 [I2 I3]] T. cbn [d_tabs d_refs d_where] in *.
  destruct op; cbn [textless_del] in T; cbn [del_step]; unfold lift1; cbn [fst].
  - destruct (tables_alike W W' tabs args [] A I1) as [<- J]; [split; [exact T|constructor]|]. split; [reflexivity|]. split; [assumption|split; assumption].
  - destruct (tables_alike W W' refs args kwds A I2 T) as [<- J]. split; [reflexivity|]. split; [assumption|split; assumption].
  - destruct T as [Tt Ta]. destruct (tables_alike W W' refs [VSeq KTuple [t; a]] [] A I2) as [<- J].
    { apply one_arg. apply tl_seq. tlc. }
    split; [reflexivity|]. split; [assumption|split; assumption].
  - destruct (where_alike W W' KWhere wh args kwds A I3 T) as [<- J]. split; [reflexivity|]. split; [assumption|split; assumption].
  - destruct (join_alike W W' (j3 ty) refs arg (j3_full _) I2 T) as [<- J]. split; [reflexivity|]. split; [assumption|split; assumption].
  - destruct (on_alike W W' refs args kwds A I2 T) as [<- J]. split; [reflexivity|]. split; [assumption|split; assumption].
  - split; [reflexivity|]. split; [assumption|split; assumption].
  - split; [reflexivity|]. split; [assumption|split; assumption].
  - split; [reflexivity|]. split; [assumption|split; assumption].
Qed.
Definition tl_ins (q : insq val) : Prop := Forall tlt (i_tabs q) /\ Forall TL (i_rows q).
Lemma ins_alike : forall W W' q op, alike W W' -> tl_ins q -> textless_ins op ->
  fst (ins_step W q op) = fst (ins_step W' q op) /\ tl_ins (fst (ins_step W q op)).
Proof.
  intros W W' [rp ig tabs rows dup cf upd] op A [I1 I2] T. cbn [i_tabs i_rows] in *.
  destruct op; cbn [textless_ins] in T; cbn [ins_step]; unfold lift1; cbn [fst].
  - destruct (tables_alike W W' tabs [t] [] A I1 (one_arg _ T)) as [<- J]. split; [reflexivity|]. split; assumption.
  - unfold rows_add. destruct (values_alike W W' [] args kwds A (Forall_nil _) T) as [<- J].
    destruct (values_set W [] args kwds) as [ps [u|e]]; cbn [fst] in *; (split; [reflexivity|]); (split; [assumption|]); [|assumption].
    apply Forall_app. split; [exact I2|]. constructor; [exact J|constructor].
  - destruct T.
  - split; [reflexivity|]. split; assumption.
Qed.

(** ** Histories *)
Lemma program_alike : forall Q Op (step : world -> Q -> Op -> Q * outcome) (I : Q -> Prop) (P : Op -> Prop),
  (forall W W' q op, alike W W' -> I q -> P op -> fst (step W q op) = fst (step W' q op) /\ I (fst (step W q op))) ->
  forall E H H' q, map snd H = map snd H' -> Forall P (map snd H) -> I q ->
  calls step q (program E H) = calls step q (program E H').
Proof.
  intros Q Op step I P S E. induction H as [|[b op] H IH]; intros [|[b' op'] H'] q M F Iq; try discriminate; [reflexivity|].
  cbn [map snd] in M. injection M as <- M. cbn [map snd] in F. inversion F as [|? ? Pop F']; subst.
  unfold calls in *. cbn [program map fold_left fst snd].
  destruct (S (pure_world (with_be E b)) (pure_world (with_be E b')) q op (alike_program E b b') Iq Pop) as [<- J].
  apply IH; assumption.
Qed.
Lemma built_alike : forall E,
  (forall H H', map snd H = map snd H' -> Forall textless_sel (map snd H) ->
     calls sel_step empty_select (program E H) = calls sel_step empty_select (program E H')) /\
  (forall H H', map snd H = map snd H' -> Forall textless_ins (map snd H) ->
     calls ins_step empty_insert (program E H) = calls ins_step empty_insert (program E H')) /\
  (forall H H', map snd H = map snd H' -> Forall textless_upd (map snd H) ->
     calls upd_step empty_update (program E H) = calls upd_step empty_update (program E H')) /\
  (forall H H', map snd H = map snd H' -> Forall textless_del (map snd H) ->
     calls del_step empty_delete (program E H) = calls del_step empty_delete (program E H')).
Proof.
  intros E. split; [|split; [|split]]; intros H H' M F.
  - apply (program_alike _ _ sel_step tl_sel textless_sel sel_alike); [exact M|exact F|]. repeat split; constructor.
  - apply (program_alike _ _ ins_step tl_ins textless_ins ins_alike); [exact M|exact F|]. split; constructor.
  - apply (program_alike _ _ upd_step tl_upd textless_upd upd_alike); [exact M|exact F|]. repeat split; constructor.
  - apply (program_alike _ _ del_step tl_del textless_del del_alike); [exact M|exact F|]. repeat split; constructor.
Qed.

(** ** Capabilities *)
Lemma full_join_backends : forall W q arg,
  (e_be (w_env W) <> BPostgres -> sel_step W q (SJoin JFull arg) = (q, Err EInvalidQuery)) /\
  (e_be (w_env W) = BPostgres -> forall ts n a js n' a', s_tabs q = ts ++ [MkTable n a js] -> join_arg arg n' a' -> table_ok_ n' a' ->
     exists q', sel_step W q (SJoin JFull arg) = (q', Ok tt) /\ sel_but_tables q q' /\
       s_tabs q' = ts ++ [MkTable n a (js ++ [MkJoin JFull n' a' []])]).
Proof.
  intros W q arg. split.
  - intros N. cbn [sel_step tables_join]. destruct (e_be (w_env W)); try (destruct N; reflexivity); destruct q; reflexivity.
  - intros B ts n a js n' a' T J O.
    exists (with_tabs q (ts ++ [MkTable n a (js ++ [MkJoin JFull n' a' []])])).
    assert (K : sel_but_tables q (with_tabs q (ts ++ [MkTable n a (js ++ [MkJoin JFull n' a' []])]))) by (repeat split).
    split; [|split; [exact K|reflexivity]]. apply (sel_join W q _ JFull arg ts n a js T). split; [intros _; rewrite B; reflexivity|].
    exists n', a'. repeat split; auto; apply O.
Qed.
Lemma on_dup_backends : forall W q a k,
  (e_be (w_env W) = BMySql -> exists vals o, upd_step W (set_list (i_dup q)) (USet a k) = (set_list vals, o) /\
     ins_step W q (IOnDup a k) = (with_dup q vals, o)) /\
  (e_be (w_env W) = BPostgres -> forall c rest, a = VStr c :: rest ->
     exists vals o, upd_step W (set_list (i_upd q)) (USet rest k) = (set_list vals, o) /\
       ins_step W q (IOnDup a k) = (with_conflict q (Some c) vals, o)) /\
  (e_be (w_env W) = BPostgres -> (forall c rest, a <> VStr c :: rest) -> ins_step W q (IOnDup a k) = (q, Err EInvalidQuery)) /\
  (e_be (w_env W) = BSqlite -> a = [] /\ k = [] -> ins_step W q (IOnDup a k) = (replacing q, Ok tt)) /\
  (e_be (w_env W) = BSqlite -> a <> [] \/ k <> [] -> ins_step W q (IOnDup a k) = (q, Err EException)).
Proof.
  intros W [rp ig tabs rows dup cf upd] a k. unfold set_list, with_dup, with_conflict, replacing.
  cbn [ins_step upd_step lift1 i_replace i_ignore i_tabs i_rows i_dup i_conflict i_upd].
  split; [|split; [|split; [|split]]]; intros B; rewrite B; cbn [supports_on_duplicate_key_update supports_on_conflict_do_update supports_replace_into].
  - destruct (values_set W dup a k) as [d [[]|e]]; do 2 eexists; split; reflexivity.
  - intros c rest ->. cbn [conflict_set snd]. destruct (values_set W upd rest k) as [d [[]|e]]; do 2 eexists; split; reflexivity.
  - intros N. unfold conflict_set. destruct a as [|x a]; [reflexivity|]. destruct x; try reflexivity. destruct (N s a). reflexivity.
  - intros [-> ->]. reflexivity.
  - intros [N|N].
    + destruct a; [destruct N; reflexivity|]. reflexivity.
    + destruct k; [destruct N; reflexivity|]. destruct a; reflexivity.
Qed.
Lemma on_dup_history : forall H, (forall wo, In wo H -> e_be (w_env (fst wo)) = BMySql) ->
  i_dup (calls ins_step empty_insert H) = u_vals (calls upd_step empty_update (flat_map as_set H)) /\
  i_upd (calls ins_step empty_insert H) = [] /\ i_replace (calls ins_step empty_insert H) = false.
Proof.
  assert (K : forall H q u, (forall wo, In wo H -> e_be (w_env (fst wo)) = BMySql) -> i_dup q = u_vals u -> i_upd q = [] -> i_replace q = false ->
    i_dup (calls ins_step q H) = u_vals (calls upd_step u (flat_map as_set H)) /\
    i_upd (calls ins_step q H) = [] /\ i_replace (calls ins_step q H) = false).
  { unfold calls. induction H as [|[W op] H IH]; intros q u B D U R; [auto|]. cbn [flat_map]. rewrite fold_left_app. cbn [fold_left fst snd].
    pose proof (B (W, op) (or_introl eq_refl)) as BW. cbn [fst] in BW.
    apply IH; [intros wo I; apply B; now right| | |];
      destruct q as [rp ig tabs rows dup cf upd], u as [ui ut uv uw ua]; cbn [i_dup i_upd i_replace u_vals] in D, U, R; subst;
      destruct op; cbn [as_set snd fst ins_step fold_left upd_step lift1 i_dup i_upd i_replace u_vals]; try reflexivity;
      rewrite BW; cbn [supports_on_duplicate_key_update supports_on_conflict_do_update supports_replace_into];
      destruct (values_set W uv args kwds) as [d [[]|e]]; reflexivity. }
  intros H B. apply K; [exact B|reflexivity|reflexivity|reflexivity].
Qed.
