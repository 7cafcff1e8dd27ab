(** Proofs for C55-C59: the queries these properties are about can be rendered. *)
From Coq Require Import Lia Permutation.
From Verif Require Import Base BaseFacts NumFmt Value Regex Backend Eq Render RenderFacts
  SpecLex SpecRef SpecRead SpecLogic SpecConds BoolFacts PfBool RefFacts LiteralFacts PfLiterals PfHistories SpecWhole PfWhole PfWholeText
  PfWholeClauses PfStatements SpecSql SpecServer PfSql PfSqlParse PfSqlCond PfSqlTree PfSqlClauses PfSqlStmt PfSqlExec.
Open Scope N_scope.

Definition fine {A} (x : res A) : Prop := exists t, x = Ok t.
Lemma fine_bind : forall A B (x : res A) (f : A -> res B), fine x -> (forall t, fine (f t)) -> fine (bind x f).
Proof. intros A B x f [t ->] H. apply H. Qed.
Lemma fine_ok : forall A (t : A), fine (Ok t).
Proof. intros. now exists t. Qed.
Lemma fine_mapM : forall A B (f : A -> res B) l, (forall x, In x l -> fine (f x)) -> fine (mapM f l).
Proof.
  induction l as [|x l IH]; intros H; [now exists []|]. cbn [mapM]. apply fine_bind; [apply H; now left|]. intros t.
  apply fine_bind; [apply IH; intros y I; apply H; now right|]. intros ts. apply fine_ok.
Qed.
Lemma fine_ctx : forall v x, fine x -> fine (part_ctx v x).
Proof. intros [] x H; [|apply fine_ok]. apply fine_bind; [exact H|]. intros t. apply fine_ok. Qed.
Ltac fb := apply fine_bind; [|let t := fresh "t" in intros t; try apply fine_ok].
Ltac parts := first [apply fine_ok | apply fine_bind; [first [exact (fine_ok _ []) | apply fine_ctx]|let t := fresh "t" in intros t; parts]].

Section Total.
Context (E : env).
Notation b := (e_be E).
Notation r := (text E).

Lemma name_fine : forall x, name_ok b x -> fine (sqlref E r x).
Proof.
  intros x H. destruct x; try contradiction; [apply fine_ok|]. destruct x; try contradiction.
  cbn [sqlref is_sql]. rewrite text_unfold. apply fine_ok.
Qed.
Lemma pyeq_fine : forall x, (name_ok b x \/ match x with VSeq _ _ => True | _ => False end) -> fine (pyeq r x (VStr (lit "*"))).
Proof.
  intros x [H|H]; destruct x; try contradiction; try (apply fine_ok).
  destruct x; try contradiction. cbn. rewrite ?text_unfold. cbn. try apply fine_ok.
Qed.
Lemma expr_fine : forall x, expr_ok b x -> fine (sqlref E r x).
Proof.
  intros x H. destruct x; try exact (name_fine _ H).
  - cbn [sqlref is_sql]. rewrite text_unfold. cbn [str_body]. apply fine_bind; [|intros; apply fine_ok].
    assert (S : fine (expr_str E r x)).
    { destruct x; try contradiction; try exact (name_fine _ H). destruct k0; try contradiction; destruct H as [_ H]; cbn [expr_str]; fb;
        apply fine_mapM; intros y I; rewrite All_In in H; apply name_fine; auto. }
    destruct k; try exact S. cbn [agg_expr]. destruct x; try contradiction.
    + apply fine_bind; [apply fine_ok|]. intros []; [rewrite text_unfold; apply fine_ok|exact S].
    + exact S.
    + apply fine_bind; [now apply pyeq_fine; left|]. intros []; [|exact S].
      pose proof (name_fine _ H) as F. destruct x; try contradiction. exact F.
  - cbn [sqlref is_sql]. rewrite text_unfold. cbn [str_body]. destruct H as [NE H]. fb. unfold columns_str. fb.
    apply fine_mapM. intros [y a] I. rewrite All_In in H. destruct (H _ I) as [H1 H2]. cbn in H1, H2. subst a. cbn [aliased_str truthy]. now apply name_fine.
Qed.
Lemma value_fine : forall x, literal_of b x <> None -> fine (sqlvalue E r x).
Proof.
  intros x H. unfold literal_of, unwrapped in H. destruct x; try (exfalso; apply H; reflexivity); try apply fine_ok.
  cbn [sqlvalue]. rewrite text_unfold. cbn [str_body]. destruct x; try (exfalso; apply H; reflexivity); apply fine_ok.
Qed.
Lemma operand_fine : forall k x, operand_ok b k x -> operand_of b k x <> None -> fine (transformer E r k x x).
Proof.
  intros k x H N. unfold transformer. destruct k, x; try (exfalso; apply N; reflexivity); try (apply value_fine; intros Z; apply N; cbn [operand_of]; rewrite Z; reflexivity); try apply fine_ok; cbn [sqlvalue]; exact (name_fine _ H).
Qed.
Lemma one_fine : forall k c rk v, one_ok b k c rk v -> fine (r (VCond k c rk v)).
Proof.
  intros k c rk v [Hc Hv]. rewrite text_unfold. cbn [str_body]. pose proof (expr_fine c Hc) as C.
  assert (Plain : operand_ok b k v /\ operand_of b k v <> None -> fine (fmt_plain (sqlref E r c) rk (transformer E r k v v))).
  { intros [H1 H2]. unfold fmt_plain. apply fine_bind; [exact C|]. intros t. apply fine_bind; [now apply operand_fine|]. intros u. apply fine_ok. }
  assert (Inn : forall s l, v = VSeq s l -> l <> [] -> All (fun x => value_ok b x /\ literal_of b x <> None) l -> fine (fmt_in (sqlref E r c) rk (transformer E r k v) v)).
  { intros s l -> NE H. unfold fmt_in. set (l' := filter (fun x => negb (is_none x)) l).
    assert (V : l' <> [] -> fine (transformer E r k (VSeq s l) (VSeq KList l'))).
    { intros NL. replace (transformer E r k (VSeq s l)) with (sqlvalue E r) by (destruct k; reflexivity). cbn [sqlvalue].
      replace (truthy (VSeq KList l')) with true by (destruct l'; [contradiction|reflexivity]). fb. apply fine_mapM. intros x I.
      apply filter_In in I. destruct I as [I _]. rewrite All_In in H. apply value_fine. now apply H. }
    destruct (existsb is_none l) eqn:X.
    - destruct l' as [|x l'].
      + cbn [is_nilb]. destruct rk; (apply fine_bind; [exact C|intros; apply fine_ok]).
      + cbn [is_nilb]. specialize (V ltac:(discriminate)).
        destruct rk; (apply fine_bind; [exact C|intros; apply fine_bind; [exact V|intros; apply fine_ok]]).
    - assert (NL : l' <> []).
      { subst l'. destruct l as [|x l]; [contradiction|]. cbn [existsb] in X. apply orb_false_iff in X. destruct X as [X _].
        cbn [filter]. rewrite X. discriminate. }
      unfold fmt_plain. apply fine_bind; [exact C|]. intros. apply fine_bind; [now apply V|]. intros. apply fine_ok. }
  unfold fmt_condition. destruct rk; try (now apply Plain); destruct v; try contradiction; destruct Hv as [H1 H2]; eapply Inn; eauto.
Qed.
Lemma cond_fine : forall x, cond_ok b x -> fine (r x).
Proof.
  refine (cond_ok_ind' b _ _ _ _ _).
  - exact one_fine.
  - intros ps NE F. rewrite text_unfold. cbn [str_body]. unfold conds_str. fb. apply fine_mapM. now rewrite Forall_forall in F.
  - intros o x y Hx Hy. rewrite text_unfold. cbn [str_body]. apply fine_bind; [exact Hx|]. intros. apply fine_bind; [exact Hy|]. intros. apply fine_ok.
  - intros ps NE F. rewrite text_unfold. cbn [str_body]. unfold conds_str. fb. fb. apply fine_mapM. now rewrite Forall_forall in F.
Qed.
Lemma conds_fine : forall kw ps, Forall (cond_ok b) ps -> fine (conds_str r kw ps).
Proof. intros kw ps F. unfold conds_str. fb. apply fine_mapM. intros x I. rewrite Forall_forall in F. apply cond_fine. auto. Qed.
Lemma aliased_fine : forall n a, fine (sqlref E r n) -> alias_fine b a -> fine (aliased_str E r (n, a)).
Proof.
  intros n a Hn Ha. cbn [aliased_str]. destruct (truthy a) eqn:T; [|exact Hn]. apply fine_bind; [exact Hn|]. intros.
  apply fine_bind; [|intros; apply fine_ok]. apply name_fine. destruct a; try exact Ha. discriminate.
Qed.
Lemma join_fine' : forall j, join_fine b j -> fine (join_str E r j).
Proof.
  intros [k n a ons] [Hn [Ha Ho]]. cbn [j_name j_alias j_ons] in *. unfold join_str. cbn [j_name j_alias j_ons j_type].
  pose proof (aliased_fine n a (name_fine n Hn) Ha) as A. pose proof (conds_fine [] ons Ho) as C.
  destruct C as [ct ->], A as [at_ ->]. destruct (is_nilb ons); apply fine_ok.
Qed.
Lemma table_fine' : forall t, table_fine b t -> fine (table_str E r t).
Proof.
  intros [n a js] [Hn [Ha [Hj K]]]. cbn [tb_name tb_alias tb_joins] in *. unfold table_str. cbn [tb_name tb_alias tb_joins].
  apply fine_bind; [apply aliased_fine; [now apply name_fine|exact Ha]|]. intros t.
  destruct js as [|j js]; [apply fine_ok|]. cbn [is_nilb].
  assert (Mi : minimize r (j :: js) = Ok (j :: js)).
  { apply minimize_apart. destruct K as [K|K]; [|exact K]. destruct js; [|cbn in K; lia]. repeat constructor. }
  rewrite Mi. cbn [bind]. fb. apply fine_mapM. intros x I. rewrite Forall_forall in Hj. apply join_fine'. auto.
Qed.
Lemma tables_fine : forall kw l, Forall (table_fine b) l -> fine (tables_str E r kw l).
Proof. intros kw l F. unfold tables_str. fb. apply fine_mapM. intros x I. rewrite Forall_forall in F. apply table_fine'. auto. Qed.
Lemma orders_fine : forall kw l, Forall (fun p => expr_ok b (fst p)) l -> fine (orders_str E r kw l).
Proof.
  intros kw l F. unfold orders_str. fb. apply fine_mapM. intros [x s] I. rewrite Forall_forall in F. specialize (F _ I). cbn in F.
  pose proof (expr_fine x F) as X. destruct s; cbn [order_str]; [exact X|]. apply fine_bind; [exact X|]. intros. apply fine_ok.
Qed.
Lemma select_renders : forall q, select_fine b q -> fine (r (VSelect q)).
Proof.
  intros q [Hc [Ht [Hw [Hg [Hh [Ho Hf]]]]]]. rewrite text_unfold. cbn [str_body]. unfold select_str, out_set. rewrite Hf.
  parts;
    auto using fine_ok, orders_fine, conds_fine, tables_fine.
  unfold columns_str. fb. apply fine_mapM. intros [x a] I. rewrite Forall_forall in Hc. destruct (Hc _ I) as [H1 H2].
  apply aliased_fine; [now apply expr_fine|exact H2].
Qed.
Lemma delete_renders : forall q, delete_fine b q -> d_where q <> [] \/ d_allow q = true -> fine (r (VDelete q)).
Proof.
  intros q [Ht [_ [Hr Hw]]] A. rewrite text_unfold. cbn [str_body]. unfold delete_str.
  replace (is_nilb (d_where q) && negb (d_allow q)) with false by (destruct A as [A| ->]; [rewrite nilb_false by exact A; reflexivity|now rewrite andb_false_r]).
  parts;
    auto using fine_ok, conds_fine, tables_fine.
Qed.
Lemma update_renders : forall q, update_fine b q -> u_where q <> [] \/ u_allow q = true -> fine (r (VUpdate q)).
Proof.
  intros q [_ [Ht [_ [Hv Hw]]]] A. rewrite text_unfold. cbn [str_body]. unfold update_str.
  replace (is_nilb (u_where q) && negb (u_allow q)) with false by (destruct A as [A| ->]; [rewrite nilb_false by exact A; reflexivity|now rewrite andb_false_r]).
  parts;
    auto using fine_ok, conds_fine, tables_fine.
  unfold values_str. fb. apply fine_mapM. intros x I. rewrite Forall_forall in Hv. specialize (Hv x I). destruct x; try contradiction.
  destruct Hv as [H1 [_ H3]]. rewrite text_unfold. cbn [str_body]. unfold value_str. apply fine_bind; [now apply name_fine|]. intros.
  apply fine_bind; [now apply value_fine|]. intros. apply fine_ok.
Qed.
Lemma insert_renders : forall q, insert_fine b q -> fine (r (VInsert q)).
Proof.
  intros q [[n [Ht Hn]] [Hdp [Hup [NR [NC Hr]]]]]. rewrite text_unfold. cbn [str_body]. unfold insert_str. rewrite Ht, Hdp, Hup.
  parts; auto using fine_ok.
  - apply tables_fine. constructor; [|constructor]. split; [exact Hn|]. split; [exact Logic.I|]. split; [constructor|]. left. cbn. lia.
  - unfold rows_str, all_columns. apply fine_bind.
    + rewrite (cells_columns E); [apply fine_ok|]. apply Forall_forall. intros x I. apply in_concat in I. destruct I as [row [I1 I2]].
      rewrite Forall_forall in Hr. specialize (Hr row I1). rewrite Forall_forall in Hr. now apply Hr.
    + intros cols. fb. apply fine_mapM. intros row I. unfold row_str. fb. apply fine_mapM. intros c _.
      rewrite Forall_forall in Hr. destruct (row_value_last E row c (Hr row I)) as [_ [_ L]]. apply value_fine. congruence.
Qed.
End Total.
