(** Proofs: calls whose arguments are of some kind keep that kind, and depend on the comparison
    of such objects only.  Used for the exceptions calls raise (C44). *)
From Coq Require Import Lia.
From Verif Require Import Base BaseFacts NumFmt Value Backend Eq Render RenderFacts ParseArgs Build Queries History
  SpecHistory SpecClauses SpecArgs SpecLists SpecBackends SpecErrors PfHistories PfArgs PfClauses PfStatements PfLists PfClauseText PfBackends PfErrors.
Open Scope N_scope.

Section Kind.
Context (KD : val -> Prop).
Hypothesis KD_leaf : forall v, is_sql v = false -> children v = [] -> match v with VSeq _ _ | VDict _ => False | _ => True end -> KD v.
Hypothesis KD_child : forall v x, KD v -> textual_eq v = false -> In x (children v) -> KD x.
Hypothesis KD_parts : forall v, match v with VSeq _ l => l <> [] | VRel _ _ | VCond _ _ _ _ | VValue _ _ => True | _ => False end -> (forall x, In x (children v) -> KD x) -> KD v.
Hypothesis KD_listed : forall k l, KD (VSeq k l) -> KD (VSeq KList l).

(** Two worlds that differ in the backend only. *)
Definition alike (W W' : world) : Prop :=
  (forall a b, KD a -> KD b -> w_eq W a b = w_eq W' a b) /\ (forall s, supper (w_env W) s = supper (w_env W') s) /\ forall v, w_str W v = w_str W' v.

Notation TL := (Forall KD).
Ltac tlc := repeat first [assumption | apply Forall_nil | apply Forall_cons].
Lemma tl_str : forall s, KD (VStr s). Proof. intros; apply KD_leaf; [reflexivity|reflexivity|exact Logic.I]. Qed.
Lemma tl_none : KD VNone. Proof. apply KD_leaf; [reflexivity|reflexivity|exact Logic.I]. Qed.
Lemma tl_int : forall s, KD (VInt s). Proof. intros; apply KD_leaf; [reflexivity|reflexivity|exact Logic.I]. Qed.
Lemma tl_seq : forall k l, l <> [] -> TL l -> KD (VSeq k l).
Proof. intros k l N F. apply KD_parts; [exact N|]. rewrite Forall_forall in F. exact F. Qed.
Lemma seq_tl : forall k l, KD (VSeq k l) -> TL l.
Proof. intros k l T. apply Forall_forall. intros x I. exact (KD_child _ _ T eq_refl I). Qed.

Lemma dict_tl : forall l, KD (VDict l) -> Forall (fun p => KD (fst p) /\ KD (snd p)) l.
Proof.
  intros l T. rewrite Forall_forall. intros [a b] I.
  split; apply (KD_child _ _ T eq_refl); cbn [children]; apply in_flat_map; eexists; (split; [exact I|]); cbn; auto.
Qed.

(** ** Arguments *)
Lemma batch_tl : forall o l b, TL l -> create_batch o l = Ok b -> TL b.
Proof.
  intros o l b F. unfold create_batch. destruct (Nat.ltb _ _); [discriminate|]. intros Q. injection Q as <-.
  apply Forall_app. split; [exact F|]. apply Forall_forall. intros x I. apply repeat_spec in I. subst x. apply tl_none.
Qed.
Lemma list_item_tl : forall o x b, KD x -> parse_list_item o x = Ok b -> TL b.
Proof.
  intros o x b T P. assert (K : TL [x]) by (constructor; [exact T|constructor]).
  unfold parse_list_item in P. destruct x as [| | | | | | | | |k l| | | | | | | | | | | | | | | | | | | | |];
    try (destruct (Nat.eqb (p_min o) 1); [|discriminate]; exact (batch_tl _ _ _ K P)).
  destruct k; try (destruct (Nat.eqb (p_min o) 1); [|discriminate]; exact (batch_tl _ _ _ K P));
    exact (batch_tl _ _ _ (seq_tl _ _ T) P).
Qed.
Lemma mapM_tl : forall A (f : A -> res (list val)) l r, (forall x b, In x l -> f x = Ok b -> TL b) -> mapM f l = Ok r -> Forall TL r.
Proof.
  intros A f. induction l as [|x l IH]; intros r H M; cbn [mapM] in M; [injection M as <-; constructor|].
  destruct (f x) as [b|] eqn:Fx; [|discriminate]. destruct (mapM f l) as [bs|]; [|discriminate]. injection M as <-.
  constructor; [apply (H x); [now left|exact Fx]|]. apply IH; [|reflexivity]. intros y c I. apply H. now right.
Qed.
Lemma parse_list_tl : forall o l r, TL l -> parse_list o l = Ok r -> Forall TL r.
Proof.
  intros o l r F. apply mapM_tl. intros x b I. apply list_item_tl. rewrite Forall_forall in F. auto.
Qed.
Lemma parse_items_tl : forall o l r, Forall (fun p => KD (fst p) /\ KD (snd p)) l -> parse_items o l = Ok r -> Forall TL r.
Proof.
  intros o l r F. apply mapM_tl. intros [a c] b I. rewrite Forall_forall in F. destruct (F _ I) as [Ta Tc].
  apply batch_tl. tlc.
Qed.
Lemma parse_alike : forall W W' o a k, (forall v, w_str W v = w_str W' v) -> parse_args W o a k = parse_args W' o a k.
Proof.
  intros W W' o a k S. unfold parse_args. apply bind_same. intros first. f_equal.
  destruct a as [|x [|y a]]; try reflexivity.
  destruct x; try reflexivity. destruct (p_dict o); [|reflexivity].
  match goal with |- bind (sort_items W ?l) _ = _ => replace (sort_items W' l) with (sort_items W l); [reflexivity|] end.
  unfold sort_items. destruct l as [|p [|p' l]]; try reflexivity.
  rewrite (mapM_ext (fun p => dict_key W (fst p)) (fun p => dict_key W' (fst p))); [reflexivity|].
  intros q _. unfold dict_key. rewrite S. reflexivity.
Qed.
Lemma parse_tl : forall W o a k r, args_given KD a k -> parse_args W o a k = Ok r -> Forall TL r.
Proof.
  intros W o a k r [Fa Fk] P. unfold parse_args in P. unfold bind in P at 1.
  match type of P with match ?f with _ => _ end = _ => destruct f as [first|] eqn:Pf; [|discriminate] end.
  unfold bind in P at 1. match type of P with match ?f with _ => _ end = _ => destruct f as [second|] eqn:Ps; [|discriminate] end.
  injection P as <-. apply Forall_app. split.
  - clear Ps. destruct a as [|x rest]; [injection Pf as <-; constructor|].
    destruct (_ && _).
    + destruct (create_batch o (x :: rest)) as [b|] eqn:B; [|discriminate]. cbn [bind] in Pf. injection Pf as <-.
      constructor; [exact (batch_tl _ _ _ Fa B)|constructor].
    + inversion Fa as [|? ? Tx Frest]; subst.
      destruct x as [| | | | | | | | |kk l| | | | | | | | | | | | | | | | | | | | |]; try exact (parse_list_tl _ _ _ Fa Pf).
      * destruct kk; try exact (parse_list_tl _ _ _ Fa Pf); destruct rest; try exact (parse_list_tl _ _ _ Fa Pf);
          (destruct (p_list o); [exact (parse_list_tl _ _ _ (seq_tl _ _ Tx) Pf)|exact (parse_list_tl _ _ _ Fa Pf)]).
      * destruct rest; [|exact (parse_list_tl _ _ _ Fa Pf)]. injection Pf as <-. constructor.
  - clear Pf first.
    assert (KW : forall s, (if p_dict o then parse_items o (sort_kwds k) else Err EInvalidArgument) = Ok s -> Forall TL s).
    { intros s. destruct (p_dict o); [|discriminate]. apply parse_items_tl. apply Forall_forall. intros p I.
      apply sort_kwds_in in I. destruct I as [q [I ->]]. rewrite Forall_forall in Fk. split; [apply tl_str|exact (Fk q I)]. }
    destruct a as [|x [|y a]].
    + destruct k; [injection Ps as <-; constructor|exact (KW _ Ps)].
    + destruct x as [| | | | | | | | | |items| | | | | | | | | | | | | | | | | | | |];
        try (destruct k; [injection Ps as <-; constructor|exact (KW _ Ps)]).
      destruct (p_dict o); [|discriminate]. destruct (sort_items W items) as [s|] eqn:S; [|discriminate]. cbn [bind] in Ps.
      revert Ps. apply parse_items_tl. apply Forall_forall. intros p I. apply (sort_items_in _ _ _ _ S) in I.
      inversion Fa as [|? ? Tx _]; subst. apply dict_tl in Tx. rewrite Forall_forall in Tx. destruct (Tx p I). auto.
    + destruct x as [| | | | | | | | | |items| | | | | | | | | | | | | | | | | | | |];
        (destruct k; [injection Ps as <-; constructor|exact (KW _ Ps)]).
Qed.
Lemma nth2_tl : forall b, TL b -> KD (fst (nth2 b)) /\ KD (snd (nth2 b)).
Proof.
  intros b F. destruct b as [|x [|y [|z b]]]; cbn; try (split; apply tl_none).
  inversion F as [|? ? ? F']; subst. inversion F'; subst. auto.
Qed.

(** ** Loops *)

(** ** Conditions *)
Lemma py_list_tl : forall v l, KD v -> py_list v = Some l -> TL l.
Proof.
  intros v l T. destruct v as [| | | | |s|b| | |k m|m| | | | | | | | | | | | | | | | | | | |]; cbn [py_list]; intros Q; try discriminate; injection Q as <-.
  - apply Forall_forall. intros x I. apply in_map_iff in I. destruct I as [c [<- _]]. apply tl_str.
  - apply Forall_forall. intros x I. apply in_map_iff in I. destruct I as [c [<- _]]. apply tl_int.
  - exact (seq_tl _ _ T).
  - apply dict_tl in T. rewrite Forall_forall in *. intros x I. apply in_map_iff in I. destruct I as [p [<- I]]. apply (T p I).
Qed.
Lemma mk_rel_tl : forall v x, KD v -> mk_rel (default_rel v) v = Ok x -> KD x.
Proof.
  intros v x T. unfold mk_rel.
  match goal with |- (if check_type _ ?w then _ else _) = _ -> _ => assert (Tw : KD w \/ is_sql v = true) end.
  { destruct (is_sql v) eqn:S; [now right|]. left. destruct v; try discriminate S; cbn [default_rel default_rel1 py_list]; try exact T.
    destruct k; try exact T; exact (KD_listed _ _ T). }
  destruct (check_type _ _) eqn:C; [|discriminate]. intros Q. injection Q as <-.
  apply KD_parts; [exact Logic.I|]. cbn [children]. intros y [<-|[]]. destruct Tw as [Tw|S]; [exact Tw|].
  destruct v; try discriminate S; cbn [default_rel default_rel1 py_list]; try exact T; destruct (default_rel1 _); exact T.
Qed.
Lemma mk_condition_tl : forall k c v x, KD c -> KD v -> mk_condition k c v = Ok x -> KD x.
Proof.
  intros k c v x Tc Tv. unfold mk_condition. destruct (negb _); [discriminate|]. destruct (negb _); [discriminate|].
  destruct (match v with VRel _ _ => Ok v | _ => mk_rel (default_rel v) v end) as [rel|] eqn:R; [|discriminate]. cbn [bind].
  assert (Tr : KD rel).
  { destruct v; try exact (mk_rel_tl _ _ Tv R). injection R as <-. exact Tv. }
  destruct rel; try discriminate. intros Q. injection Q as <-. apply KD_parts; [exact Logic.I|].
  cbn [children]. intros y [<-|[<-|[]]]; [exact Tc|]. apply (KD_child _ _ Tr eq_refl). now left.
Qed.
Lemma where_alike : forall W W' k ps a kw, alike W W' -> TL ps -> args_given KD a kw ->
  conds_where W k ps a kw = conds_where W' k ps a kw /\ TL (fst (conds_where W k ps a kw)).
Proof.
  intros W W' k ps a kw [AE [_ AS]] Fp Fa.
  assert (N : let body W := match parse_args W pair_opts a kw with
           | Err e => (ps, Err e)
           | Ok items =>
               foldE (fun s it => let (c, v) := nth2 it in
                        commit s (do x <- mk_condition k c v; append_unique (w_eq W) s x)) ps items
           end in body W = body W' /\ TL (fst (body W))).
  { cbv zeta beta. rewrite <- (parse_alike W W' pair_opts a kw AS).
    destruct (parse_args W pair_opts a kw) as [items|] eqn:P; [|split; [reflexivity|exact Fp]].
    apply (foldE_alike _ _ _ _ (Forall KD) (Forall KD)); [|exact Fp|exact (parse_tl _ _ _ _ _ Fa P)].
    intros s it Fs Fi. destruct (nth2_tl it Fi) as [Tc Tv]. destruct (nth2 it) as [c v]. cbn [fst snd] in *.
    destruct (mk_condition k c v) as [x|] eqn:M; cbn [bind commit]; [|split; [reflexivity|exact Fs]].
    destruct (append_alike _ (w_eq W) (w_eq W') KD AE s x Fs (mk_condition_tl _ _ _ _ Tc Tv M)) as [<- K].
    split; [reflexivity|]. destruct (append_unique (w_eq W) s x) as [s'|]; [exact (K s' eq_refl)|exact Fs]. }
  assert (O : let body W := foldE (fun s x => commit s (append_unique (w_eq W) s x)) ps a in body W = body W' /\ TL (fst (body W))).
  { cbv zeta beta. apply (foldE_alike _ _ _ _ (Forall KD) KD); [|exact Fp|apply Fa].
    intros s x Fs Tx. destruct (append_alike _ (w_eq W) (w_eq W') KD AE s x Fs Tx) as [<- K].
    split; [reflexivity|]. destruct (append_unique (w_eq W) s x) as [s'|]; [exact (K s' eq_refl)|exact Fs]. }
  unfold conds_where. destruct a as [|x [|y a]]; [destruct (_ && _); assumption| |destruct (_ && _); assumption].
  destruct kw; [|destruct (_ && _); assumption]. destruct (is_sql x); [|exact N]. split; [reflexivity|].
  apply Forall_app. split; [exact Fp|apply Fa].
Qed.

(** ** Columns, orders, tables, values *)
Definition tl2 (p : val * val) : Prop := KD (fst p) /\ KD (snd p).
Lemma columns_alike : forall W W' cs a kw, alike W W' -> Forall tl2 cs -> args_given KD a kw ->
  columns_add W cs a kw = columns_add W' cs a kw /\ Forall tl2 (fst (columns_add W cs a kw)).
Proof.
  intros W W' cs a kw [AE [_ AS]] Fc Fa. unfold columns_add. rewrite <- (parse_alike W W' alias_opts a kw AS).
  destruct (parse_args W alias_opts a kw) as [items|] eqn:P; [|split; [reflexivity|exact Fc]].
  apply (foldE_alike _ _ _ _ (Forall tl2) (Forall KD)); [|exact Fc|exact (parse_tl _ _ _ _ _ Fa P)].
  intros s it Fs Fi. destruct (nth2_tl it Fi) as [Tc Tv]. destruct (nth2 it) as [c v]. cbn [fst snd] in *.
  unfold mk_column. destruct (negb _); [split; [reflexivity|exact Fs]|]. destruct (negb _); [split; [reflexivity|exact Fs]|]. cbn [bind].
  destruct (append_alike _ (pair_eq (w_eq W)) (pair_eq (w_eq W')) tl2) with (ps := s) (x := (c, v)) as [<- K];
    [intros [p q] [p' q'] [? ?] [? ?]; cbn [pair_eq fst snd] in *; rewrite !AE by assumption; reflexivity|exact Fs|split; assumption|].
  split; [reflexivity|]. destruct (append_unique (pair_eq (w_eq W)) s (c, v)) as [s'|]; [exact (K s' eq_refl)|exact Fs].
Qed.
Definition tl1 (p : val * sortd) : Prop := KD (fst p).
Lemma sort_alike : forall W W' v, alike W W' -> mk_sort (w_env W) v = mk_sort (w_env W') v.
Proof. intros W W' v [_ [U _]]. unfold mk_sort. destruct (negb _); [reflexivity|]. destruct v; try reflexivity. rewrite U. reflexivity. Qed.
Lemma update_alike : forall W W' os c s, alike W W' -> Forall tl1 os -> KD c ->
  order_update W os c s = order_update W' os c s /\ forall os', order_update W os c s = Ok (Some os') -> Forall tl1 os'.
Proof.
  intros W W' os c s A F Tc. induction F as [|[c' s'] os Tx F IH]; [split; [reflexivity|discriminate]|].
  cbn [order_update]. rewrite (proj1 A c' c Tx Tc). destruct (w_eq W' c' c) as [[|]|]; [| |split; [reflexivity|discriminate]].
  - rewrite (sort_alike _ _ s A). destruct (mk_sort _ s); cbn [bind]; (split; [reflexivity|]); [|discriminate].
    intros os' Q. injection Q as <-. constructor; assumption.
  - destruct IH as [IH1 IH2]. rewrite <- IH1. destruct (order_update W os c s) as [[o|]|]; cbn [bind]; (split; [reflexivity|]); try discriminate.
    intros os' Q. injection Q as <-. constructor; [exact Tx|]. apply IH2. reflexivity.
Qed.
Lemma orders_alike : forall W W' os a kw, alike W W' -> Forall tl1 os -> args_given KD a kw ->
  orders_add W os a kw = orders_add W' os a kw /\ Forall tl1 (fst (orders_add W os a kw)).
Proof.
  intros W W' os a kw A Fc Fa. unfold orders_add. rewrite <- (parse_alike W W' alias_opts a kw (proj2 (proj2 A))).
  destruct (parse_args W alias_opts a kw) as [items|] eqn:P; [|split; [reflexivity|exact Fc]].
  apply (foldE_alike _ _ _ _ (Forall tl1) (Forall KD)); [|exact Fc|exact (parse_tl _ _ _ _ _ Fa P)].
  intros s it Fs Fi. destruct (nth2_tl it Fi) as [Tc Tv]. destruct (nth2 it) as [c v]. cbn [fst snd] in *.
  destruct (update_alike W W' s c v A Fs Tc) as [<- K].
  destruct (order_update W s c v) as [[o|]|]; cbn [bind].
  - split; [reflexivity|]. exact (K o eq_refl).
  - destruct (negb _); [split; [reflexivity|exact Fs]|]. rewrite (sort_alike _ _ v A).
    destruct (mk_sort _ v); cbn [bind]; (split; [reflexivity|]); [|exact Fs]. cbn. apply Forall_app. split; [exact Fs|]. constructor; [exact Tc|constructor].
  - split; [reflexivity|exact Fs].
Qed.
Definition tlj (j : join val) : Prop := TL (join_vals j).
Definition tlt (t : table val) : Prop := TL (table_vals t).
Lemma tables_alike : forall W W' ts a kw, alike W W' -> Forall tlt ts -> args_given KD a kw ->
  tables_set W ts a kw = tables_set W' ts a kw /\ Forall tlt (fst (tables_set W ts a kw)).
Proof.
  intros W W' ts a kw A Ft [Fa Fk]. unfold tables_set.
  assert (Fa' : args_given KD (filter truthy a) kw).
  { split; [|exact Fk]. rewrite Forall_forall in *. intros x I. apply filter_In in I. apply Fa, I. }
  rewrite <- (parse_alike W W' alias_opts (filter truthy a) kw (proj2 (proj2 A))).
  destruct (parse_args W alias_opts (filter truthy a) kw) as [items|] eqn:P; [|split; [reflexivity|exact Ft]].
  apply (foldE_alike _ _ _ _ (Forall tlt) (Forall KD)); [|exact Ft|exact (parse_tl _ _ _ _ _ Fa' P)].
  intros s it Fs Fi. destruct (nth2_tl it Fi) as [Tc Tv]. destruct (nth2 it) as [c v]. cbn [fst snd] in *.
  unfold mk_table. destruct (negb _); [split; [reflexivity|exact Fs]|]. destruct (negb _); [split; [reflexivity|exact Fs]|]. cbn [bind fst snd].
  destruct (append_alike _ (table_eq (w_eq W)) (table_eq (w_eq W')) tlt) with (ps := s) (x := MkTable c v []) as [<- K].
  - intros p q Tp Tq. apply table_eq_ext. intros x y Ix Iy. unfold tlt in *. rewrite Forall_forall in *. apply A; auto.
  - exact Fs.
  - tlc.
  - split; [reflexivity|]. destruct (append_unique (table_eq (w_eq W)) s (MkTable c v [])) as [s'|]; [exact (K s' eq_refl)|exact Fs].
Qed.
Lemma on_last_alike : forall f g, (forall t, tlt t -> fst (f t) = fst (g t) /\ tlt (fst (f t))) -> forall ts, Forall tlt ts ->
  fst (on_last_table f ts) = fst (on_last_table g ts) /\ Forall tlt (fst (on_last_table f ts)).
Proof.
  intros f g H ts F. unfold on_last_table. pose proof (upd_last_alike _ f g tlt H ts F) as U.
  destruct (upd_last f ts) as [[a ?]|], (upd_last g ts) as [[b ?]|]; try contradiction; [|split; [reflexivity|exact F]].
  destruct U as [-> J]. split; [reflexivity|exact J].
Qed.
Lemma target_tl : forall W arg x, KD arg -> join_target W arg = Ok x -> KD (fst x) /\ KD (snd x).
Proof.
  intros W arg x T J.
  assert (MK : forall n a, KD n -> KD a -> mk_table n a = Ok x -> KD (fst x) /\ KD (snd x)).
  { intros n a Tn Ta. unfold mk_table. destruct (negb _); [discriminate|]. destruct (negb _); [discriminate|]. intros Q. injection Q as <-. auto. }
  destruct arg as [| | | | |s| | | |k l|l| | | | | | | | | | | | | | | | | | | |]; cbn [join_target] in J;
    try (destruct (w_str W _); discriminate).
  - exact (MK _ _ T tl_none J).
  - pose proof (seq_tl _ _ T) as F. destruct k; try (destruct (w_str W _); discriminate);
      (destruct l as [|n [|a [|z l]]]; try (destruct (w_str W _); discriminate);
       inversion F as [|? ? Tn F']; subst; inversion F' as [|? ? Ta _]; subst; exact (MK _ _ Tn Ta J)).
  - apply dict_tl in T. destruct l as [|[n a] [|z l]]; try (destruct (w_str W _); discriminate).
    inversion T as [|? ? [Tn Ta] _]; subst. exact (MK _ _ Tn Ta J).
Qed.
Lemma join_alike : forall W W' ty ts arg, ty <> JFull -> Forall tlt ts -> KD arg ->
  fst (tables_join W ty ts arg) = fst (tables_join W' ty ts arg) /\ Forall tlt (fst (tables_join W ty ts arg)).
Proof.
  intros W W' ty ts arg N F T.
  assert (K : fst (on_last_table (table_join W ty arg) ts) = fst (on_last_table (table_join W' ty arg) ts) /\
              Forall tlt (fst (on_last_table (table_join W ty arg) ts))).
  { apply on_last_alike; [|exact F]. intros t Tt. unfold table_join. pose proof (target_alike W W' arg) as TA.
    destruct (join_target W arg) as [x|] eqn:J.
    - rewrite (proj1 (TA x) eq_refl). cbn [bind commit fst]. split; [reflexivity|]. destruct (target_tl _ _ _ T J) as [Tn Ta].
      unfold tlt, table_vals in *. cbn [tb_name tb_alias tb_joins] in *. inversion Tt as [|? ? T1 Tt']; subst. inversion Tt' as [|? ? T2 Tt'']; subst.
      constructor; [exact T1|]. constructor; [exact T2|]. rewrite flat_map_app. apply Forall_app. split; [exact Tt''|]. tlc.
    - destruct (join_target W' arg) as [x|] eqn:J'; [discriminate (proj2 (TA x) eq_refl)|]. cbn. split; [reflexivity|exact Tt]. }
  destruct ty; try exact K. destruct N; reflexivity.
Qed.
Lemma on_alike : forall W W' ts a kw, alike W W' -> Forall tlt ts -> args_given KD a kw ->
  fst (tables_on W ts a kw) = fst (tables_on W' ts a kw) /\ Forall tlt (fst (tables_on W ts a kw)).
Proof.
  intros W W' ts a kw A F Fa. apply on_last_alike; [|exact F]. intros t Tt. unfold table_on.
  assert (Tj : Forall tlj (tb_joins t)).
  { unfold tlt, table_vals in Tt. inversion Tt as [|? ? _ Tt']; subst. inversion Tt' as [|? ? _ Tt'']; subst.
    apply Forall_forall. intros j I. rewrite Forall_forall in Tt''. apply Forall_forall. intros x Ix. apply Tt'', in_flat_map. eauto. }
  pose proof (upd_last_alike _
    (fun j => let (ons, o) := conds_where W KOn (j_ons j) a kw in (MkJoin (j_type j) (j_name j) (j_alias j) ons, o))
    (fun j => let (ons, o) := conds_where W' KOn (j_ons j) a kw in (MkJoin (j_type j) (j_name j) (j_alias j) ons, o)) tlj) as U.
  assert (H : forall x, tlj x ->
    fst (let (ons, o) := conds_where W KOn (j_ons x) a kw in (MkJoin (j_type x) (j_name x) (j_alias x) ons, o)) =
    fst (let (ons, o) := conds_where W' KOn (j_ons x) a kw in (MkJoin (j_type x) (j_name x) (j_alias x) ons, o)) /\
    tlj (fst (let (ons, o) := conds_where W KOn (j_ons x) a kw in (MkJoin (j_type x) (j_name x) (j_alias x) ons, o)))).
  { intros [ty n al ons] Tx. unfold tlj, join_vals in Tx. cbn [j_type j_name j_alias j_ons] in *.
    inversion Tx as [|? ? T1 Tx']; subst. inversion Tx' as [|? ? T2 Tx'']; subst.
    destruct (where_alike W W' KOn ons a kw A Tx'' Fa) as [<- J]. split; [reflexivity|].
    destruct (conds_where W KOn ons a kw) as [ons' o]. cbn [fst] in *. tlc. }
  specialize (U H _ Tj). clear H.
  destruct (upd_last _ (tb_joins t)) as [[js1 o1]|]; destruct (upd_last _ (tb_joins t)) as [[js2 o2]|]; try contradiction; [|split; [reflexivity|exact Tt]].
  destruct U as [-> J]. cbn [fst]. split; [reflexivity|]. unfold tlt, table_vals in *. cbn [tb_name tb_alias tb_joins].
  inversion Tt as [|? ? T1 Tt']; subst. inversion Tt' as [|? ? T2 Tt'']; subst. constructor; [exact T1|]. constructor; [exact T2|].
  apply Forall_forall. intros x I. apply in_flat_map in I. destruct I as [j [Ij I]]. rewrite Forall_forall in J. specialize (J j Ij).
  unfold tlj in J. rewrite Forall_forall in J. auto.
Qed.
Lemma values_alike : forall W W' ps a kw, alike W W' -> TL ps -> args_given KD a kw ->
  values_set W ps a kw = values_set W' ps a kw /\ TL (fst (values_set W ps a kw)).
Proof.
  intros W W' ps a kw [AE [_ AS]] Fp Fa. unfold values_set.
  assert (N : let body W := match parse_args W pair_opts a kw with
           | Err e => (ps, Err e)
           | Ok items =>
               foldE (fun s it => let (c, v) := nth2 it in
                        commit s (do x <- mk_value c v; append_unique (w_eq W) s x)) ps items
           end in body W = body W' /\ TL (fst (body W))).
  { cbv zeta beta. rewrite <- (parse_alike W W' pair_opts a kw AS).
    destruct (parse_args W pair_opts a kw) as [items|] eqn:P; [|split; [reflexivity|exact Fp]].
    apply (foldE_alike _ _ _ _ (Forall KD) (Forall KD)); [|exact Fp|exact (parse_tl _ _ _ _ _ Fa P)].
    intros s it Fs Fi. destruct (nth2_tl it Fi) as [Tc Tv]. destruct (nth2 it) as [c v]. cbn [fst snd] in *.
    unfold mk_value. destruct (negb _); [split; [reflexivity|exact Fs]|]. destruct (negb _); [split; [reflexivity|exact Fs]|]. cbn [bind].
    assert (Tx : KD (VValue c v)).
    { apply KD_parts; [exact Logic.I|]. cbn [children]. intros y [<-|[<-|[]]]; assumption. }
    destruct (append_alike _ (w_eq W) (w_eq W') KD AE s _ Fs Tx) as [<- K].
    split; [reflexivity|]. destruct (append_unique (w_eq W) s (VValue c v)) as [s'|]; [exact (K s' eq_refl)|exact Fs]. }
  destruct a as [|x [|y a]]; try exact N. destruct kw; [|exact N]. destruct (is_sql x); [|exact N]. split; [reflexivity|].
  apply Forall_app. split; [exact Fp|apply Fa].
Qed.

(** ** Queries *)
Definition tl_sel (q : selq val) : Prop :=
  Forall tl2 (s_cols q) /\ Forall tlt (s_tabs q) /\ TL (s_where q) /\ Forall tl1 (s_group q) /\ TL (s_having q) /\ Forall tl1 (s_order q).
Definition tl_upd (q : updq val) : Prop := Forall tlt (u_tabs q) /\ TL (u_vals q) /\ TL (u_where q).
Lemma one_arg : forall v, KD v -> args_given KD [v] [].
Proof. intros v T. split; [tlc|constructor]. Qed.
Lemma upd_alike : forall W W' q op, alike W W' -> tl_upd q -> upd_given KD op ->
  fst (upd_step W q op) = fst (upd_step W' q op) /\ tl_upd (fst (upd_step W q op)).
Proof.
  intros W W' [ig tabs vals wh al] op A [I1 [I2 I3]] T. cbn [u_tabs u_vals u_where] in *.
  destruct op; cbn [upd_given] in T; cbn [upd_step]; unfold lift1; cbn [fst].
  - destruct (tables_alike W W' tabs [t] [] A I1 (one_arg _ T)) as [<- J]. split; [reflexivity|]. split; [exact J|split; assumption].
  - destruct (values_alike W W' vals args kwds A I2 T) as [<- J]. split; [reflexivity|]. split; [assumption|split; assumption].
  - destruct (where_alike W W' KWhere wh args kwds A I3 T) as [<- J]. split; [reflexivity|]. split; [assumption|split; assumption].
  - destruct (join_alike W W' (j3 ty) tabs arg (j3_full _) I1 T) as [<- J]. split; [reflexivity|]. split; [assumption|split; assumption].
  - destruct (on_alike W W' tabs args kwds A I1 T) as [<- J]. split; [reflexivity|]. split; [assumption|split; assumption].
  - split; [reflexivity|]. split; [assumption|split; assumption].
  - split; [reflexivity|]. split; [assumption|split; assumption].
  - split; [reflexivity|]. split; [assumption|split; assumption].
Qed.
Definition tl_del (q : delq val) : Prop := Forall tlt (d_tabs q) /\ Forall tlt (d_refs q) /\ TL (d_where q).
Lemma del_alike : forall W W' q op, alike W W' -> tl_del q -> del_given KD op ->
  fst (del_step W q op) = fst (del_step W' q op) /\ tl_del (fst (del_step W q op)).
Proof.
  intros W W' [ig tabs refs wh al] op A [I1 [I2 I3]] T. cbn [d_tabs d_refs d_where] in *.
  destruct op; cbn [del_given] in T; cbn [del_step]; unfold lift1; cbn [fst].
  - destruct (tables_alike W W' tabs args [] A I1) as [<- J]; [split; [exact T|constructor]|]. split; [reflexivity|]. split; [assumption|split; assumption].
  - destruct (tables_alike W W' refs args kwds A I2 T) as [<- J]. split; [reflexivity|]. split; [assumption|split; assumption].
  - destruct T as [Tt Ta]. destruct (tables_alike W W' refs [VSeq KTuple [t; a]] [] A I2) as [<- J].
    { apply one_arg. apply tl_seq; [discriminate|]. tlc. }
    split; [reflexivity|]. split; [assumption|split; assumption].
  - destruct (where_alike W W' KWhere wh args kwds A I3 T) as [<- J]. split; [reflexivity|]. split; [assumption|split; assumption].
  - destruct (join_alike W W' (j3 ty) refs arg (j3_full _) I2 T) as [<- J]. split; [reflexivity|]. split; [assumption|split; assumption].
  - destruct (on_alike W W' refs args kwds A I2 T) as [<- J]. split; [reflexivity|]. split; [assumption|split; assumption].
  - split; [reflexivity|]. split; [assumption|split; assumption].
  - split; [reflexivity|]. split; [assumption|split; assumption].
  - split; [reflexivity|]. split; [assumption|split; assumption].
Qed.
Definition tl_ins (q : insq val) : Prop := Forall tlt (i_tabs q) /\ Forall TL (i_rows q).

Lemma join_tl : forall W ty ts arg, Forall tlt ts -> KD arg -> Forall tlt (fst (tables_join W ty ts arg)).
Proof.
  intros W ty ts arg F T. destruct ty; try (apply (join_alike W W); [discriminate|exact F|exact T]).
  unfold tables_join. destruct (supports_full_join _); [|exact F].
  apply (on_last_alike (table_join W JFull arg) (table_join W JFull arg)); [|exact F]. intros t Tt. split; [reflexivity|]. unfold table_join.
  destruct (join_target W arg) as [x|] eqn:J; [|exact Tt]. cbn [bind commit fst]. destruct (target_tl _ _ _ T J) as [Tn Ta].
  unfold tlt, table_vals in *. cbn [tb_name tb_alias tb_joins] in *. inversion Tt as [|? ? T1 Tt']; subst. inversion Tt' as [|? ? T2 Tt'']; subst.
  constructor; [exact T1|]. constructor; [exact T2|]. rewrite flat_map_app. apply Forall_app. split; [exact Tt''|]. tlc.
Qed.
Lemma alike_refl : forall W, alike W W. Proof. intros W. split; [|split]; reflexivity. Qed.
Lemma sel_tl : forall W q op, tl_sel q -> sel_given KD op -> tl_sel (fst (sel_step W q op)).
Proof.
  intros W q op [I1 [I2 [I3 [I4 [I5 I6]]]]] T. pose proof (alike_refl W) as A.
  destruct op; cbn [sel_given] in T; cbn [sel_step]; unfold lift1; cbn [fst].
  - pose proof (proj2 (columns_alike W W (s_cols q) args kwds A I1 T)). repeat split; assumption.
  - pose proof (proj2 (tables_alike W W (s_tabs q) args kwds A I2 T)). repeat split; assumption.
  - destruct T as [Tt Ta]. assert (T2 : args_given KD [VSeq KTuple [t; a]] []) by (apply one_arg, tl_seq; [discriminate|]; tlc).
    pose proof (proj2 (tables_alike W W (s_tabs q) _ _ A I2 T2)). repeat split; assumption.
  - pose proof (join_tl W ty (s_tabs q) arg I2 T). repeat split; assumption.
  - pose proof (proj2 (on_alike W W (s_tabs q) args kwds A I2 T)). repeat split; assumption.
  - pose proof (proj2 (where_alike W W KWhere (s_where q) args kwds A I3 T)). repeat split; assumption.
  - pose proof (proj2 (where_alike W W KWhere (s_having q) args kwds A I5 T)). repeat split; assumption.
  - pose proof (proj2 (orders_alike W W (s_group q) args kwds A I4 T)). repeat split; assumption.
  - pose proof (proj2 (orders_alike W W (s_order q) args kwds A I6 T)). repeat split; assumption.
  - repeat split; assumption.
  - repeat split; assumption.
  - repeat split; assumption.
  - repeat split; assumption.
  - repeat split; assumption.
Qed.
Definition tl_ins_all (q : insq val) : Prop := tl_ins q /\ TL (i_dup q) /\ TL (i_upd q).
Lemma ins_tl : forall W q op, tl_ins_all q -> ins_given KD op -> tl_ins_all (fst (ins_step W q op)).
Proof.
  intros W q op [I1 [I2 I3]] T.
  destruct q as [rp ig tabs rows dup cf upd]. destruct I1 as [I0 I1]. cbn [i_dup i_upd i_tabs i_rows] in *.
  destruct op; cbn [ins_given ins_step] in *; unfold lift1; cbn [fst].
  { pose proof (proj2 (tables_alike W W tabs [t] [] (alike_refl W) I0 (one_arg _ T))). repeat split; assumption. }
  { unfold rows_add. pose proof (proj2 (values_alike W W [] args kwds (alike_refl W) (Forall_nil _) T)) as J.
    destruct (values_set W [] args kwds) as [ps [u|e]]; cbn [fst] in *; repeat split; try assumption. cbn [i_rows].
    apply Forall_app. split; [exact I1|]. constructor; [exact J|constructor]. }
  2: { repeat split; assumption. }
  pose proof (proj2 (values_alike W W dup args kwds (alike_refl W) I2 T)) as D.
  assert (C : TL (snd (fst (conflict_set W (cf, upd) args kwds)))).
  { unfold conflict_set. destruct args as [|a rest]; [exact I3|]. destruct a; try exact I3. cbn [snd].
    assert (T' : args_given KD rest kwds) by (destruct T as [T1 T2]; inversion T1; split; assumption).
    pose proof (proj2 (values_alike W W upd rest kwds (alike_refl W) I3 T')) as C. destruct (values_set W upd rest kwds). exact C. }
  destruct (supports_on_duplicate_key_update _).
  - destruct (values_set W dup args kwds) as [d [u|e]]; cbn [fst] in D; [|repeat split; assumption].
    destruct (supports_on_conflict_do_update _).
    + destruct (conflict_set W (cf, upd) args kwds) as [[c p] [u'|e]]; cbn [fst snd] in C; [|repeat split; assumption].
      destruct (supports_replace_into _); [destruct (_ || _)|]; repeat split; assumption.
    + destruct (supports_replace_into _); [destruct (_ || _)|]; repeat split; assumption.
  - destruct (supports_on_conflict_do_update _).
    + destruct (conflict_set W (cf, upd) args kwds) as [[c p] [u'|e]]; cbn [fst snd] in C; [|repeat split; assumption].
      destruct (supports_replace_into _); [destruct (_ || _)|]; repeat split; assumption.
    + destruct (supports_replace_into _); [destruct (_ || _)|]; repeat split; assumption.
Qed.
Lemma upd_tl : forall W q op, tl_upd q -> upd_given KD op -> tl_upd (fst (upd_step W q op)).
Proof. intros W q op I T. exact (proj2 (upd_alike W W q op (alike_refl W) I T)). Qed.
Lemma del_tl : forall W q op, tl_del q -> del_given KD op -> tl_del (fst (del_step W q op)).
Proof. intros W q op I T. exact (proj2 (del_alike W W q op (alike_refl W) I T)). Qed.

(** A world whose comparisons of such objects are those of the backend and never raise. *)
Section Calm.
Context (E : env) (WC : world).
Hypothesis CA : alike (pure_world E) WC.
Hypothesis CT : tot2 (w_eq WC).
Lemma invalid_on : forall ts a k e, Forall tlt ts -> args_given KD a k -> keys_ok a k -> snd (tables_on (pure_world E) ts a k) = Err e -> invalid e.
Proof.
  intros ts a k e T A K. destruct (on_shape ts) as [F|[ts0 [n [al [js [ty [n' [al' [ons ->]]]]]]]]].
  - rewrite F. intros Q. injection Q as <-. now right.
  - rewrite on_rebuilt, lift_snd. apply invalid_only.
    assert (To : TL ons).
    { apply Forall_app in T. destruct T as [_ T]. inversion T as [|? ? T1 _]; subst. unfold tlt, table_vals in T1. cbn [tb_joins] in T1.
      rewrite Forall_forall in *. intros x I. apply T1. right; right. apply in_flat_map. eexists. split; [apply in_or_app; right; left; reflexivity|].
      right; right; exact I. }
    rewrite (proj1 (where_alike _ _ KOn ons a k CA To A)). apply only_where; [exact CT|exact K].
Qed.

Lemma sel_invalid : forall q op q' e, tl_sel q -> sel_given KD op -> regular_sel E op -> sel_step (pure_world E) q op = (q', Err e) -> invalid e.
Proof.
  intros q op q' e [I1 [I2 [I3 [I4 [I5 I6]]]]] T R H. apply (f_equal snd) in H. cbn [snd] in H. pose proof CA as C.
  destruct op; cbn [regular_sel sel_given sel_step] in *; rewrite ?lift_snd in H; revert H.
  - rewrite (proj1 (columns_alike _ _ _ _ _ C I1 T)). apply invalid_only, only_columns; assumption.
  - rewrite (proj1 (tables_alike _ _ _ _ _ C I2 T)). apply invalid_only, only_tables; assumption.
  - destruct T as [Tt Ta]. assert (T2 : args_given KD [VSeq KTuple [t; a]] []) by (apply one_arg, tl_seq; [discriminate|]; tlc).
    rewrite (proj1 (tables_alike _ _ _ _ _ C I2 T2)). apply invalid_only, only_tables; [assumption|]. split; [constructor|discriminate].
  - apply invalid_join, R.
  - apply invalid_on; assumption.
  - rewrite (proj1 (where_alike _ _ _ _ _ _ C I3 T)). apply invalid_only, only_where; assumption.
  - rewrite (proj1 (where_alike _ _ _ _ _ _ C I5 T)). apply invalid_only, only_where; assumption.
  - rewrite (proj1 (orders_alike _ _ _ _ _ C I4 T)). apply invalid_only, only_orders; [assumption|apply R|apply R].
  - rewrite (proj1 (orders_alike _ _ _ _ _ C I6 T)). apply invalid_only, only_orders; [assumption|apply R|apply R].
  - apply invalid_only, only_limit; apply R.
  - apply invalid_only, only_offset; apply R.
  - unfold set_out. destruct (negb _); [|discriminate]. intros H. injection H as <-. now left.
  - discriminate.
  - discriminate.
Qed.
Lemma upd_invalid : forall q op q' e, tl_upd q -> upd_given KD op -> regular_upd E op -> upd_step (pure_world E) q op = (q', Err e) -> invalid e.
Proof.
  intros [ig tabs vals wh al] op q' e [I1 [I2 I3]] T R H. apply (f_equal snd) in H. cbn [snd] in H. pose proof CA as C.
  destruct op; cbn [regular_upd upd_given upd_step u_tabs u_vals u_where] in *; rewrite ?lift_snd in H; try discriminate H; revert H.
  - rewrite (proj1 (tables_alike _ _ _ _ _ C I1 (one_arg _ T))). apply invalid_only, only_tables; [assumption|]. apply keys_one, R.
  - rewrite (proj1 (values_alike _ _ _ _ _ C I2 T)). apply invalid_only, only_values; assumption.
  - rewrite (proj1 (where_alike _ _ _ _ _ _ C I3 T)). apply invalid_only, only_where; assumption.
  - apply invalid_join, R.
  - apply invalid_on; assumption.
Qed.
Lemma del_invalid : forall q op q' e, tl_del q -> del_given KD op -> regular_del E op -> del_step (pure_world E) q op = (q', Err e) ->
  invalid e.
Proof.
  intros [ig tabs refs wh al] op q' e [I1 [I2 I3]] T R H. apply (f_equal snd) in H. cbn [snd] in H. pose proof CA as C.
  destruct op; cbn [regular_del del_given del_step d_tabs d_refs d_where] in *; rewrite ?lift_snd in H; try discriminate H; revert H.
  - assert (T2 : args_given KD args []) by (split; [exact T|constructor]).
    rewrite (proj1 (tables_alike _ _ _ _ _ C I1 T2)). apply invalid_only, only_tables; assumption.
  - rewrite (proj1 (tables_alike _ _ _ _ _ C I2 T)). apply invalid_only, only_tables; assumption.
  - destruct T as [Tt Ta]. assert (T2 : args_given KD [VSeq KTuple [t; a]] []) by (apply one_arg, tl_seq; [discriminate|]; tlc).
    rewrite (proj1 (tables_alike _ _ _ _ _ C I2 T2)). apply invalid_only, only_tables; [assumption|]. split; [constructor|discriminate].
  - rewrite (proj1 (where_alike _ _ _ _ _ _ C I3 T)). apply invalid_only, only_where; assumption.
  - apply invalid_join, R.
  - apply invalid_on; assumption.
Qed.
Lemma ins_invalid : forall q op q' e, tl_ins_all q -> ins_given KD op -> regular_ins E op -> ins_step (pure_world E) q op = (q', Err e) ->
  invalid e.
Proof.
  intros [rp ig tabs rows dup cf upd] op q' e [[I1 I2] [I3 I4]] T R H. apply (f_equal snd) in H. cbn [snd] in H. pose proof CA as C.
  destruct op; cbn [regular_ins ins_given ins_step i_tabs i_rows i_dup i_upd] in *; rewrite ?lift_snd in H; try discriminate H.
  - revert H. rewrite (proj1 (tables_alike _ _ _ _ _ C I1 (one_arg _ T))). apply invalid_only, only_tables; [assumption|]. apply keys_one, R.
  - unfold rows_add in H. pose proof (proj1 (values_alike _ _ [] args kwds C (Forall_nil _) T)) as VE.
    pose proof (only_values _ [] args kwds CT R) as O. rewrite <- VE in O. destruct (values_set _ [] args kwds) as [ps [u|e0]]; [discriminate|].
    cbn [snd] in *. left. injection H as <-. apply O. reflexivity.
  - destruct (e_be E) eqn:B; cbn [pure_world w_env] in H; rewrite B in H; cbn in H.
    + discriminate H.
    + pose proof (proj1 (values_alike _ _ dup args kwds C I3 T)) as VE. pose proof (only_values _ dup args kwds CT R) as O. rewrite <- VE in O.
      destruct (values_set _ dup args kwds) as [ps [u|e0]]; [discriminate|]. cbn [snd] in *. left. injection H as <-. apply O. reflexivity.
    + unfold conflict_set in H. destruct args as [|a rest]; [injection H as <-; now right|]. cbn [List.tl] in R.
      destruct a; try (injection H as <-; now right). cbn [snd] in H.
      assert (T' : args_given KD rest kwds) by (destruct T as [T1 T2]; inversion T1; split; assumption).
      pose proof (proj1 (values_alike _ _ upd rest kwds C I4 T')) as VE. pose proof (only_values _ upd rest kwds CT R) as O. rewrite <- VE in O.
      destruct (values_set _ upd rest kwds) as [ps [u|e0]]; [discriminate|]. cbn [snd] in *. left. injection H as <-. apply O. reflexivity.
    + destruct R as [-> ->]. discriminate H.
Qed.

End Calm.
End Kind.

Lemma text_only : forall E v, prints E v <-> only_arg (text E v).
Proof.
  intros E v. unfold prints, printable, only_arg. split.
  - intros [[t ->]| ->] e Q; [discriminate|]. now injection Q.
  - intros H. destruct (text E v) as [t|e]; [left; eauto|right]. now rewrite (H e eq_refl).
Qed.
Lemma only_mapM : forall A B (f : A -> res B) l, (forall x, In x l -> only_arg (f x)) -> only_arg (mapM f l).
Proof.
  intros A B f l H. induction l as [|x l IH]; [apply only_ok|]. cbn [mapM]. apply only_bind; [apply H; now left|]. intros a _.
  apply only_bind; [apply IH; intros y I; apply H; now right|]. intros; apply only_ok.
Qed.
Section Tame.
  Context (E : env).
  Hypothesis prints_data : forall v, e_pystr E v <> None.
  Notation EB b := (with_be E b).
  Lemma only_pytext : forall b v, only_arg (pytext (EB b) v).
  Proof.
    intros b v. assert (D : only_arg (match e_pystr (EB b) v with Some s => Ok s | None => Err EUnmodelled end)).
    { change (e_pystr (EB b) v) with (e_pystr E v). destruct (e_pystr E v) eqn:P; [apply only_ok|]. now destruct (prints_data v). }
    destruct v; try exact D; apply only_ok.
  Qed.
  Lemma tame_prints : forall b v, tame E v -> only_arg (text (EB b) v).
  Proof.
    intros b v [w P _]. destruct (is_sql w) eqn:S; [apply text_only, P; reflexivity|]. rewrite text_unfold.
    destruct w; try discriminate S; apply only_pytext.
  Qed.
  Lemma only_ref : forall b v, tame E v -> only_arg (sqlref (EB b) (text (EB b)) v).
  Proof.
    intros b v T. pose proof (tame_prints b v T) as P. unfold sqlref.
    destruct v; cbn [is_sql]; try apply only_ok; try exact P; (apply only_bind; [exact P|]; intros; apply only_ok).
  Qed.
  Lemma tame_child : forall v x, tame E v -> textual_eq v = false -> In x (children v) -> tame E x.
  Proof. intros v x [w _ C] T I. exact (C T x I). Qed.
  Lemma only_value : forall b v, tame E v -> only_arg (sqlvalue (EB b) (text (EB b)) v).
  Proof.
    intros b v. induction v as [v IH] using val_ind_children. intros T. pose proof (tame_prints b v T) as P.
    destruct v; cbn [sqlvalue]; try apply only_ok; try exact P; try (apply only_bind; [exact P|]; intros; apply only_ok).
    destruct (truthy _); [|apply only_err]. apply only_bind; [|intros; apply only_ok]. apply only_mapM. intros x I. apply IH; [exact I|].
    exact (tame_child _ _ T eq_refl I).
  Qed.
  Lemma tame_filter : forall k l f, tame E (VSeq k l) -> tame E (VSeq KList (filter f l)).
  Proof.
    intros k l f T. constructor; [discriminate|]. intros _ x I. cbn [children] in I. apply filter_In in I.
    apply (tame_child _ _ T eq_refl). apply I.
  Qed.
  Lemma only_plain : forall (c x : res str) rk, only_arg c -> only_arg x -> only_arg (fmt_plain c rk x).
  Proof. intros c x rk Hc Hx. apply only_bind; [exact Hc|]. intros a _. apply only_bind; [exact Hx|]. intros; apply only_ok. Qed.
  Lemma only_condition : forall b k c rk v, tame E c -> tame E v -> only_arg (text (EB b) (VCond k c rk v)).
  Proof.
    intros b k c rk v Tc Tv. rewrite text_unfold. cbn [str_body].
    assert (A : forall w, tame E w -> only_arg (transformer (EB b) (text (EB b)) k v w)).
    { intros w Tw. unfold transformer. destruct k; [now apply only_value|]. destruct v; now (apply only_value || apply only_ref). }
    pose proof (only_ref b c Tc) as C.
    assert (In_ : only_arg (fmt_in (sqlref (EB b) (text (EB b)) c) rk (transformer (EB b) (text (EB b)) k v) v)).
    { unfold fmt_in. destruct v as [| | | | | | | | |ks l| | | | | | | | | | | | | | | | | | | | |]; try (apply only_plain; [exact C|now apply A]).
      cbv zeta. pose proof (A _ (tame_filter _ _ (fun x => negb (is_none x)) Tv)) as F.
      destruct (existsb _ _); [|now apply only_plain]. destruct (is_nilb _).
      - destruct rk; (apply only_bind; [exact C|]; intros; apply only_ok).
      - destruct rk; (apply only_bind; [exact C|]; intros ? _; apply only_bind; [exact F|]; intros; apply only_ok). }
    unfold fmt_condition. destruct rk; try exact In_; (apply only_plain; [exact C|now apply A]).
  Qed.
  Lemma tame_parts : forall v, match v with VSeq _ l => l <> [] | VRel _ _ | VCond _ _ _ _ | VValue _ _ => True | _ => False end ->
    (forall x, In x (children v) -> tame E x) -> tame E v.
  Proof.
    intros v K C. constructor; [|auto]. intros S b. apply text_only.
    destruct v; try destruct K; [discriminate S| | |]; cbn [children] in C.
    - rewrite text_unfold. cbn [str_body]. apply only_bind; [|intros; apply only_ok]. apply tame_prints, C. now left.
    - apply only_condition; apply C; cbn; auto.
    - rewrite text_unfold. cbn [str_body]. unfold value_str. apply only_bind; [apply only_ref, C; cbn; auto|]. intros ? _.
      apply only_bind; [apply only_value, C; cbn; auto|]. intros; apply only_ok.
  Qed.
  Lemma tame_listed : forall k l, tame E (VSeq k l) -> tame E (VSeq KList l).
  Proof. intros k l T. constructor; [discriminate|]. intros _ x I. exact (tame_child _ _ T eq_refl I). Qed.
  Lemma tame_leaf : forall v, is_sql v = false -> children v = [] -> match v with VSeq _ _ | VDict _ => False | _ => True end -> tame E v.
  Proof. intros v S C D. constructor; [congruence|]. rewrite C. intros _ x []. Qed.
  (** Comparing tame objects renders only objects that print. *)
  Definition quiet (b : backend) (v : val) : res str := match text (EB b) v with Ok t => Ok t | Err _ => Err EInvalidArgument end.
  Lemma quiet_only : forall b v, only_arg (quiet b v).
  Proof. intros b v. unfold quiet. destruct (text _ v); [apply only_ok|apply only_err]. Qed.
  Lemma quiet_text : forall b v, tame E v -> quiet b v = text (EB b) v.
  Proof. intros b v T. unfold quiet. pose proof (tame_prints b v T) as P. destruct (text _ v); [reflexivity|]. now rewrite (P e eq_refl). Qed.
  Lemma tame_pyeq : forall r r', (forall v, tame E v -> r v = r' v) -> forall a b, tame E a -> tame E b -> pyeq r a b = pyeq r' a b.
  Proof.
    intros r r' HR a. induction a as [a H] using val_ind_children. intros b Ta Tb.
    pose proof (HR a Ta) as Ra. pose proof (HR b Tb) as Rb.
    destruct (textual_eq a) eqn:Xa.
    { clear H Ta Tb HR. destruct a; try discriminate Xa; cbn [pyeq textual_eq]; rewrite Ra; destruct b; cbn [is_sql]; rewrite ?Rb; reflexivity. }
    destruct (textual_eq b) eqn:Xb.
    { clear H Ta Tb HR Ra. destruct a; try discriminate Xa; clear Xa; cbn [pyeq textual_eq]; destruct b; try discriminate Xb; rewrite ?Rb; try reflexivity;
        destruct k; reflexivity. }
    assert (IH : forall x y, In x (children a) -> In y (children b) -> pyeq r x y = pyeq r' x y).
    { intros x y Hx Hy. apply H; [exact Hx|exact (tame_child _ _ Ta Xa Hx)|exact (tame_child _ _ Tb Xb Hy)]. }
    clear H Ta Tb HR Ra Rb.
    destruct a; cbn [textual_eq] in Xa; try discriminate; cbn [pyeq textual_eq];
      try (destruct b; cbn [textual_eq] in Xb; try discriminate; reflexivity).
    - destruct b; try reflexivity. cbn [children] in IH.
      rewrite (list_eq_ext (pyeq r) (pyeq r') l l0) by auto.
      destruct (seqk_eqb k k0); [reflexivity|]. destruct (is_setk k && is_setk k0); [|reflexivity].
      destruct (Nat.eqb (Datatypes.length l) (Datatypes.length l0)); [|reflexivity].
      apply allM_ext. intros x Hx. apply anyM_ext. intros y Hy. now apply IH.
    - destruct b; try reflexivity. cbn [children] in IH.
      destruct (Nat.eqb (Datatypes.length l) (Datatypes.length l0)); [|reflexivity].
      apply allM_ext. intros [k v] Hx. apply anyM_ext. intros [k' v'] Hy.
      rewrite (IH k k'), (IH v v'); try reflexivity; apply in_flat_map; eexists; split; eauto; simpl; auto.
    - destruct b; try reflexivity. now rewrite (IH a b) by (simpl; auto).
    - destruct b; destruct k; try reflexivity; destruct k0; try reflexivity.
      + rewrite (IH a1 b1), (IH a2 b2) by (simpl; auto). reflexivity.
      + rewrite (IH a1 b1), (IH a2 b2), (IH a2 b1), (IH a1 b2) by (simpl; auto). reflexivity.
    - destruct b; try reflexivity. now rewrite (IH a1 b1), (IH a2 b2) by (simpl; auto).
    - destruct b; try reflexivity. apply list_eq_ext. exact IH.
    - destruct b; try reflexivity. apply sel_eq_ext. exact IH.
    - destruct b; try reflexivity. now rewrite (IH a1 b1), (IH a2 b2) by (simpl; auto).
    - destruct b; try reflexivity. apply ins_eq_ext. exact IH.
    - destruct b; try reflexivity. apply upd_eq_ext. exact IH.
    - destruct b; try reflexivity. apply del_eq_ext. exact IH.
  Qed.
  Definition quiet_world (b : backend) : world := MkWorld (EB b) (pyeq (quiet b)) (text (EB b)).
  Lemma quiet_alike : forall b, alike (tame E) (pure_world (EB b)) (quiet_world b).
  Proof.
    intros b. split; [|split; reflexivity]. intros x y Tx Ty. cbn [pure_world quiet_world w_eq]. apply tame_pyeq; [|exact Tx|exact Ty].
    intros v T. symmetry. now apply quiet_text.
  Qed.
  Lemma quiet_tot : forall b, tot2 (w_eq (quiet_world b)).
  Proof. intros b. apply tot_pyeq. intros v. apply quiet_only. Qed.
  Lemma object_exceptions : forall b,
    (forall H op q' e, Forall (sel_given (tame E)) (map snd H) -> sel_given (tame E) op -> regular_sel (EB b) op ->
       sel_step (pure_world (EB b)) (calls sel_step empty_select (program E H)) op = (q', Err e) -> invalid e) /\
    (forall H op q' e, Forall (upd_given (tame E)) (map snd H) -> upd_given (tame E) op -> regular_upd (EB b) op ->
       upd_step (pure_world (EB b)) (calls upd_step empty_update (program E H)) op = (q', Err e) -> invalid e) /\
    (forall H op q' e, Forall (del_given (tame E)) (map snd H) -> del_given (tame E) op -> regular_del (EB b) op ->
       del_step (pure_world (EB b)) (calls del_step empty_delete (program E H)) op = (q', Err e) -> invalid e) /\
    (forall H op q' e, Forall (ins_given (tame E)) (map snd H) -> ins_given (tame E) op -> regular_ins (EB b) op ->
       ins_step (pure_world (EB b)) (calls ins_step empty_insert (program E H)) op = (q', Err e) -> invalid e).
  Proof.
    intros b. split; [|split; [|split]]; intros H op q' e F T R Q.
    - refine (sel_invalid (tame E) tame_leaf tame_child tame_parts tame_listed _ _ (quiet_alike b) (quiet_tot b) _ _ _ _ _ T R Q).
      apply (program_keeps _ _ sel_step (tl_sel (tame E)) (sel_given (tame E))); [|exact F|repeat split; constructor].
      exact (sel_tl (tame E) tame_leaf tame_child tame_parts tame_listed).
    - refine (upd_invalid (tame E) tame_leaf tame_child tame_parts tame_listed _ _ (quiet_alike b) (quiet_tot b) _ _ _ _ _ T R Q).
      apply (program_keeps _ _ upd_step (tl_upd (tame E)) (upd_given (tame E))); [|exact F|repeat split; constructor].
      exact (upd_tl (tame E) tame_leaf tame_child tame_parts tame_listed).
    - refine (del_invalid (tame E) tame_leaf tame_child tame_parts tame_listed _ _ (quiet_alike b) (quiet_tot b) _ _ _ _ _ T R Q).
      apply (program_keeps _ _ del_step (tl_del (tame E)) (del_given (tame E))); [|exact F|repeat split; constructor].
      exact (del_tl (tame E) tame_leaf tame_child tame_parts tame_listed).
    - refine (ins_invalid (tame E) tame_leaf tame_child tame_parts _ _ (quiet_alike b) (quiet_tot b) _ _ _ _ _ T R Q).
      apply (program_keeps _ _ ins_step (tl_ins_all (tame E)) (ins_given (tame E))); [|exact F|repeat split; constructor].
      exact (ins_tl (tame E) tame_leaf tame_child tame_parts).
  Qed.
End Tame.
