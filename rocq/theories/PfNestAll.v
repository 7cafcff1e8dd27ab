(** Proofs for C60-C61: functions, tables and queries as text. *)
From Coq Require Import Lia Permutation.
From Verif Require Import Base BaseFacts NumFmt Value Regex Backend Eq Render RenderFacts
  SpecLex SpecRef SpecRead SpecLogic SpecConds BoolFacts PfBool RefFacts LiteralFacts PfLiterals PfHistories SpecWhole PfWhole PfWholeText
  PfWholeClauses PfStatements SpecClauses PfClauses SpecSql SpecServer PfSql PfSqlParse PfSqlCond PfSqlClauses PfSqlStmt
  SpecNested SpecSays PfNestRead PfNestQuery PfNestText PfNestVals.
Open Scope N_scope.

Lemma options_sorted : forall o, options_said o = ssort (selopts_texts o).
Proof.
  intros [ca du sm bi bu cf st hi]. destruct ca, du, sm, bi, bu, cf, st, hi; reflexivity.
Qed.
Lemma part_ctx_ok : forall v s, part_ctx v (Ok s) = Ok (if v then c_sp :: s else []).
Proof. now intros [] s. Qed.

Section All.
Context (E : env).
Notation b := (e_be E).
Notation d := (dialect_of b).
Notation tells := (tells d).
Notation part := (part d).
Notation Hd := (ident_34_96 E).
Notation r := (text E).
Notation Mid := (tells_mid d Hd).
Notation Lead := (tells_lead d Hd).
Notation good := (good E).
Notation xsaid := (xsaid E).
Notation qsaid := (qsaid E).

Lemma good_str : forall s, good (VStr s).
Proof.
  intros s. repeat split.
  - intros e H. now apply object_kind in H.
  - intros q H. now apply query_kind in H.
  - intros c us H. inversion H.
  - intros t H. inversion H.
Qed.

(** ** Functions *)
Lemma function_good : forall k, good_function (function_name k).
Proof. intros []; repeat split; try reflexivity; discriminate. Qed.
Lemma agg_one : forall k x e, good x -> refers E x e -> xsaid (agg_expr E r k x) e.
Proof.
  intros k x e G H.
  assert (P : expr_str E r x = sqlref E r x).
  { inversion H as [| |? ? O]; subst; try reflexivity. apply object_kind in O. destruct x; try contradiction; reflexivity. }
  pose proof (refers_said E x e G H) as S. destruct k; cbn [agg_expr]; rewrite ?P; try exact S.
  inversion H as [s N|z|y e' O]; subst.
  - cbn [pyeq textual_eq bind]. destruct (seqb s (lit "*")) eqn:Q; [|exact S]. apply seqb_eq in Q. subst s.
    exists (lit "*"), [XSym 42]. split; [now rewrite text_unfold|]. split.
    + split; [now exists [], 42|]. exists [TCode 42]. split; [apply (code_piece d Hd [42]); reflexivity|]. reflexivity.
    + exact (xreads_column [[42]] ltac:(discriminate)).
  - exact S.
  - destruct S as [t [ls [X S]]]. destruct (textual_eq x) eqn:T.
    + assert (Q : pyeq r x (VStr (lit "*")) = Ok (seqb t (lit "*"))).
      { transitivity (do u <- r x; Ok (seqb u (lit "*"))); [destruct x; try discriminate; reflexivity|].
        rewrite <- (textual_ref E x T), X. reflexivity. }
      rewrite Q. cbn [bind]. exists t, ls. split; [|exact S]. destruct (seqb t (lit "*")); [now rewrite <- (textual_ref E x T)|exact X].
    + assert (Q : pyeq r x (VStr (lit "*")) = Ok false).
      { apply object_kind in O. destruct x; try contradiction; try discriminate T; reflexivity. }
      rewrite Q. cbn [bind]. exists t, ls. auto.
Qed.
Lemma call_said : forall f (dd : bool) t lss es, good_function f -> f <> [] -> forallb word_char f = true -> leadb (f ++ [40]) = true ->
  tells t (joinx [XSym 44] lss) -> Forall2 xreads lss es -> lss <> [] ->
  xsaid (Ok (f ++ paren ((if dd then lit "DISTINCT " else []) ++ t))) (NCall f dd es).
Proof.
  intros f dd t lss es K N W L T X NE. exists (f ++ paren ((if dd then lit "DISTINCT " else []) ++ t)).
  exists (XWord f :: bracketed ((if dd then [XWord (lit "DISTINCT")] else []) ++ joinx [XSym 44] lss)).
  split; [reflexivity|]. split; [|now apply xreads_call]. apply call_tells; auto.
  destruct dd; [|exact T]. apply Lead; [split; reflexivity|exact T].
Qed.
Lemma word_ok_tells : forall w, word_ok w -> tells w [XWord w].
Proof.
  intros w [NE H]. rewrite forallb_forall in H.
  assert (A : forall c, In c w -> word_char c = true /\ c < 128).
  { intros c I. specialize (H c I). apply andb_true_iff in H. destruct H as [H1 H2]. apply N.ltb_lt in H2. auto. }
  apply tells_word; [exact Hd|exact NE|apply forallb_forall; intros c I; now apply A|].
  destruct (exists_last NE) as [y [c ->]]. rewrite last_last. destruct (A c) as [W L]; [apply in_or_app; right; now left|].
  destruct (is_space c) eqn:S; [|reflexivity]. apply whitespace_ok in S. unfold whitespace in S. cbn [In] in S.
  exfalso. repeat (destruct S as [S|S]; [subst c; first [discriminate W|lia]|]). exact S.
Qed.
Lemma object_step : forall x, (forall y, (depth y < depth x)%nat -> good y) -> (forall q, query E x q -> qsaid x q) ->
  forall e, object E x e -> xsaid (sqlref E r x) e.
Proof.
  intros x IH HQ e H.
  assert (Ch : forall y, In y (children x) -> good y) by (intros y I; apply IH, children_depth, I).
  inversion H as [x0 e0 V|x0 e0 R|k dd x0 e0 R|k dd s l es K NE F|cols es NE F|cols ords sep es os o NE F Fo Sp|x0 e0 ty R W|x0 q Q]; subst.
  - cbn [sqlref is_sql]. rewrite text_V. apply values_said; [apply Ch; cbn; auto|exact V].
  - cbn [sqlref is_sql]. rewrite text_R. apply refers_said; [apply Ch; cbn; auto|exact R].
  - destruct (agg_one k x0 e0 (Ch x0 (or_introl eq_refl)) R) as [t [ls [X [T S]]]].
    cbn [sqlref is_sql]. rewrite text_unfold. cbn [str_body]. rewrite X. cbn [bind].
    replace (agg_name k) with (function_name k) by (destruct k; reflexivity).
    apply (call_said _ dd t [ls]); auto; try (destruct k; first [reflexivity|discriminate]). apply function_good.
  - assert (G : forall y, In y l -> good y).
    { intros y I. apply IH. pose proof (children_depth (VSeq s l) y I) as D1.
      pose proof (children_depth (VAgg k dd (VSeq s l)) (VSeq s l) (or_introl eq_refl)) as D2. lia. }
    assert (F' : Forall2 (fun y e => xsaid (sqlref E r y) e) l es).
    { clear - F G. induction F as [|y e l es Hy F IHF]; [constructor|]. constructor; [apply refers_said; [apply G; now left|exact Hy]|].
      apply IHF. intros z I. apply G. now right. }
    destruct (exprs_said E (sqlref E r) l es F' NE) as [ts [lss [M [N [T [X N']]]]]].
    assert (Ex : expr_str E r (VSeq s l) = Ok (sjoin (lit ", ") ts)) by (destruct K; subst s; cbn [expr_str]; now rewrite M).
    assert (Ag : agg_expr E r k (VSeq s l) = Ok (sjoin (lit ", ") ts)) by (destruct k; try exact Ex; exact Ex).
    cbn [sqlref is_sql]. rewrite text_unfold. cbn [str_body]. rewrite Ag. cbn [bind].
    replace (agg_name k) with (function_name k) by (destruct k; reflexivity).
    apply (call_said _ dd _ lss); auto; try (destruct k; first [reflexivity|discriminate]). apply function_good.
  - assert (F' : Forall2 (fun p e => xsaid (aliased_str E r p) e) cols es).
    { assert (G : forall p, In p cols -> good (fst p)) by (intros p I; apply Ch; cbn [children]; apply in_flat_map; exists p; cbn; auto).
      clear - F G. induction F as [|p e cols es Hp F IHF]; [constructor|]. constructor; [apply unnamed_said; [apply G; now left|exact Hp]|].
      apply IHF. intros q I. apply G. now right. }
    destruct (mapM_said E _ _ (aliased_str E r) xreads cols es F') as [ts [lss [M [FT [FQ L]]]]].
    assert (N : ts <> []) by (eapply length_nil; eauto). assert (N' : lss <> []) by (destruct FT; [contradiction|discriminate]).
    cbn [sqlref is_sql]. rewrite text_unfold. cbn [str_body]. unfold columns_str. rewrite M. cbn [bind].
    replace (parts_str [] (lit "*") (lit ", ") ts) with (sjoin (lit ", ") ts) by (destruct ts; [contradiction|reflexivity]).
    apply (call_said (lit "CONCAT") false _ lss); auto; try reflexivity; try discriminate.
    + repeat split; try reflexivity; discriminate.
    + now apply comma_tells.
  - assert (F' : Forall2 (fun p e => xsaid (aliased_str E r p) e) cols es).
    { assert (G : forall p, In p cols -> good (fst p)) by (intros p I; apply Ch; cbn [children]; apply in_or_app; left; apply in_flat_map; exists p; cbn; auto).
      clear - F G. induction F as [|p e cols es Hp F IHF]; [constructor|]. constructor; [apply unnamed_said; [apply G; now left|exact Hp]|].
      apply IHF. intros q I. apply G. now right. }
    destruct (mapM_said E _ _ (aliased_str E r) xreads cols es F') as [ts [lss [M [FT [FQ L]]]]].
    assert (N : ts <> []) by (eapply length_nil; eauto). assert (N' : lss <> []) by (destruct FT; [contradiction|discriminate]).
    assert (Go : Forall (fun p => good (fst p)) ords).
    { apply Forall_forall. intros p I. apply Ch. cbn [children]. apply in_or_app. right. apply in_or_app. left. now apply in_map. }
    destruct (orders_said E ords os (lit "ORDER BY") (lit "ORDER") [lit "BY"] Go Fo ltac:(split; reflexivity) ltac:(discriminate)) as [xo [lo [oo [Xo [Po [Co Ho]]]]]].
    assert (Hs : exists xs ls, (if truthy sep then do x <- sqlvalue E r sep; Ok (lit " SEPARATOR " ++ x) else Ok []) = Ok xs /\ part xs ls /\ clause_in [lit "SEPARATOR"] an_expr dot ls o).
    { inversion Sp as [y T|y e' T V]; subst; rewrite T.
      - exists [], []. split; [reflexivity|]. split; [apply part_none|apply clause_in_none].
      - destruct (values_said E sep e') as [t [ls [X [Tl S]]]]; [apply Ch; cbn [children]; rewrite !in_app_iff; right; right; now left|exact V|].
        rewrite X. cbn [bind]. eexists. exists (XWord (lit "SEPARATOR") :: ls). split; [reflexivity|]. split.
        + apply (part_some d (lit "SEPARATOR " ++ t)). apply (Lead (lit "SEPARATOR ") [XWord (lit "SEPARATOR")]); [split; reflexivity|exact Tl].
        + apply (clause_in_some _ [lit "SEPARATOR"]). exact (proj2 S). }
    destruct Hs as [xs [ls [Xs [Ps Cs]]]].
    cbn [sqlref is_sql]. rewrite text_unfold. cbn [str_body]. unfold columns_str. rewrite M. cbn [bind]. rewrite Xo. cbn [bind]. rewrite Xs. cbn [bind].
    replace (parts_str [] (lit "*") (lit ", ") ts) with (sjoin (lit ", ") ts) by (destruct ts; [contradiction|reflexivity]).
    eexists. eexists. split; [reflexivity|]. rewrite <- Ho. split; [|exact (xreads_group_concat lss es lo oo ls o FQ N' Co Cs)].
    apply call_tells; try reflexivity; [discriminate|].
    pose proof (tells_part d Hd _ _ _ _ (tells_part d Hd _ _ _ _ (comma_tells E _ _ FT N) Po) Ps) as Q. rewrite <- !app_assoc in Q. exact Q.
  - assert (G : good x0) by (apply Ch; cbn; auto). destruct (refers_said E x0 e0 G R) as [t [ls [X [T S]]]].
    assert (P : expr_str E r x0 = sqlref E r x0).
    { inversion R as [| |? ? O]; subst; try reflexivity. apply object_kind in O. destruct x0; try contradiction; reflexivity. }
    cbn [sqlref is_sql]. rewrite text_unfold. cbn [str_body]. rewrite P, X. cbn [bind].
    eexists. eexists. split; [reflexivity|]. split; [|exact (xreads_convert ls e0 ty S)].
    apply call_tells; try reflexivity; [discriminate|].
    exact (Mid _ _ 44 [32] [XSym 44] _ _ T eq_refl between_comma (word_ok_tells ty W)).
  - destruct (HQ q Q) as [t [ls [X [T S]]]].
    assert (P : sqlref E r x = Ok (paren t)).
    { apply query_kind in Q. destruct x; try contradiction; cbn [sqlref]; now rewrite X. }
    exists (paren t), (bracketed ls). split; [exact P|]. split; [now apply (tells_paren d Hd)|now apply xreads_sub].
Qed.

(** ** Tables *)
Definition a_from : NP nfrom := fun _ pq => p_from pq.
Lemma from_said_ok : forall n f, good n -> from_said E n f ->
  exists t ls, sqlref E r n = Ok t /\ tells t ls /\ readable a_from dot ls f.
Proof.
  intros n f G H. inversion H as [x p N P|x q Q]; subst.
  - destruct (name_text E n p N P) as [t [T [NE Tl]]]. exists t, (path_lexemes p). split; [exact T|]. split; [exact Tl|].
    intros k m _ _. now apply from_name.
  - destruct G as [_ [G _]]. destruct (G q Q) as [t [ls [T [Tl R]]]]. exists (paren t), (bracketed ls).
    split; [apply query_kind in Q; destruct n; try contradiction; cbn [sqlref]; now rewrite T|].
    split; [now apply (tells_paren d Hd)|]. intros k m _ L. apply from_sub. now apply sub_reads.
Qed.
Lemma named_from : forall n a f o, good n -> from_said E n f -> alias_said b a o ->
  exists t ls, aliased_str E r (n, a) = Ok t /\ tells t ls /\ readable (fun px pq => p_aliased (a_from px pq)) end_alias ls (f, o).
Proof.
  intros n a f o G F A. destruct (from_said_ok n f G F) as [nt [ls [N [T R]]]].
  destruct (alias_ok E n a o nt ls A N T) as [t [la [S [T' C]]]]. exists t, (ls ++ la). split; [exact S|]. split; [exact T'|].
  intros k m L1 L2. rewrite app_length in *. apply aliased_reads; [|exact C]. apply R; lia.
Qed.
Definition a_join : NP njoin := fun px pq => p_njoin px pq.
Lemma join_said_ok : forall j y, good (j_name j) -> Forall good (j_ons j) -> join_said E j y ->
  exists t ls, join_str E r j = Ok t /\ tells t ls /\ (readable a_join end_join ls y /\ join_starts ls).
Proof.
  intros j y Gn Go H. inversion H as [k n a ons f o e F A C]; subst. cbn [j_name j_ons] in *.
  destruct (named_from n a f o Gn F A) as [nt [ls [N [T R]]]].
  assert (W : between (jointy_str k ++ lit " ") (map XWord (join_words k))) by (destruct k; split; reflexivity).
  assert (On : exists xo lo, (if is_nilb ons then Ok [] else do o <- conds_str r [] ons; Ok (lit " ON " ++ o)) = Ok xo /\ part xo lo /\
    clause_in [lit "ON"] a_condition (stop_at Search) lo e).
  { inversion C as [|ps t NE Cj]; subst.
    - exists [], []. split; [reflexivity|]. split; [apply part_none|apply clause_in_none].
    - destruct (bare_conds_said E ons t Go Cj) as [x [lx [X [Tx S]]]]. rewrite (nilb_false _ ons NE), X. cbn [bind].
      eexists. exists (XWord (lit "ON") :: lx). split; [reflexivity|]. split.
      + apply (part_some d (lit "ON " ++ x)). apply (Lead (lit "ON ") [XWord (lit "ON")]); [split; reflexivity|exact Tx].
      + apply (clause_in_some _ [lit "ON"]). now apply tsays_condition. }
  destruct On as [xo [lo [Xo [Po Co]]]].
  unfold join_str. cbn [j_ons j_name j_alias j_type]. rewrite Xo. cbn [bind]. rewrite N. cbn [bind].
  eexists. exists (map XWord (join_words k) ++ ls ++ lo). split; [reflexivity|]. split; [|split].
  - pose proof (Lead _ _ _ _ W (tells_part d Hd _ _ _ _ T Po)) as Q. rewrite <- app_assoc in Q. exact Q.
  - intros p m L1 L2. rewrite !app_length in *. apply njoin_reads; [exact (R p m ltac:(lia) ltac:(lia))|]. apply (clause_at _ _ _ _ _ _ p m Co); lia.
  - destruct k; cbn [join_words map app]; do 2 eexists; (split; [reflexivity|]); cbn; auto.
Qed.
Lemma merged_nonempty : forall js ms, merged E js ms -> js <> [] -> ms <> [].
Proof.
  intros js ms M NE. inversion M as [|j l tw ot out rest P S R]; subst; [contradiction|]. inversion S; discriminate.
Qed.
Definition a_source : NP nsource := fun px pq => p_nsource px pq.
Lemma table_said_ok : forall t y, (forall v, In v (table_vals t) -> good v) -> table_said E t y ->
  exists x ls, table_str E r t = Ok x /\ tells x ls /\ readable a_source end_table ls y.
Proof.
  intros t y G H. inversion H as [n a js ms f o l F A M J]; subst.
  assert (Gn : good n) by (apply G; now left).
  destruct (named_from n a f o Gn F A) as [nt [ls [N [T R]]]].
  pose proof (proj2 (minimize_merged E js ms) M) as Mi.
  assert (Gj : forall x, In x ms -> good (j_name x) /\ Forall good (j_ons x)).
  { intros x I. destruct (minimize_origin r js ms Mi x I) as [j [Ij [E1 [_ [E3 _]]]]]. rewrite E1, E3.
    assert (K : forall v, In v (join_vals j) -> good v).
    { intros v Iv. apply G. unfold table_vals. cbn [tb_name tb_alias tb_joins]. right. right. apply in_flat_map. eauto. }
    split; [apply K; now left|]. apply Forall_forall. intros v Iv. apply K. right. now right. }
  assert (J' : Forall2 (fun x z => exists u lu, join_str E r x = Ok u /\ tells u lu /\ (readable a_join end_join lu z /\ join_starts lu)) ms l).
  { clear - J Gj. induction J as [|x z ms l Hx J IH]; [constructor|]. constructor.
    - destruct (Gj x (or_introl eq_refl)). now apply join_said_ok.
    - apply IH. intros w I. apply Gj. now right. }
  destruct (mapM_said E _ _ (join_str E r) _ ms l J') as [ts [lss [Mm [FT [FQ L]]]]].
  assert (FR : Forall2 (readable a_join end_join) lss l /\ Forall join_starts lss).
  { clear - FQ. induction FQ as [|x z lss l [H1 H2] F [I1 I2]]; split; constructor; auto. }
  destruct FR as [FR FS].
  assert (Rd : readable a_source end_table (ls ++ joinx [] lss) (NSource f o l)).
  { intros p m L1 L2. rewrite app_length in *. apply nsource_reads; [exact (R p m ltac:(lia) ltac:(lia))| |exact FS].
    assert (K1 : Forall (fun z => List.length z <= p)%nat lss) by (apply (joinx_parts []); lia).
    assert (K2 : Forall (fun z => List.length z <= S m)%nat lss) by (apply (joinx_parts []); lia).
    clear - FR K1 K2. induction FR as [|x z lss l Hx F IH]; [constructor|]. inversion K1; inversion K2; subst. constructor; [now apply Hx|auto]. }
  unfold table_str. cbn [tb_name tb_alias tb_joins]. rewrite N. cbn [bind]. destruct js as [|j js].
  - inversion M; subst. inversion J; subst. cbn [mapM] in Mm. injection Mm as <-. inversion FT; subst. cbn [is_nilb].
    exists nt, ls. split; [reflexivity|]. split; [exact T|]. cbn [joinx] in Rd. now rewrite app_nil_r in Rd.
  - cbn [is_nilb]. rewrite Mi. cbn [bind]. rewrite Mm. cbn [bind].
    eexists. exists (ls ++ joinx [] lss). split; [reflexivity|]. split; [|exact Rd].
    assert (Nt : ts <> []) by (eapply length_nil; [exact L|]; apply (merged_nonempty (j :: js)); [exact M|discriminate]).
    assert (Jt : tells (sjoin (lit " ") ts) (joinx [] lss)) by (apply (tells_join d Hd 32 []); [reflexivity|split; reflexivity|exact Nt|exact FT]).
    exact (Mid _ _ c_sp [] [] _ _ T eq_refl (ltac:(split; reflexivity)) Jt).
Qed.
Lemma tables_said_all : forall l ys, (forall v, In v (flat_map table_vals l) -> good v) -> Forall2 (table_said E) l ys ->
  Forall2 (fun x y => exists t ls, table_str E r x = Ok t /\ tells t ls /\ readable a_source end_table ls y) l ys.
Proof.
  intros l ys G F. induction F as [|x y l ys H F IH]; [constructor|]. constructor.
  - apply table_said_ok; [|exact H]. intros v I. apply G. cbn [flat_map]. apply in_or_app. now left.
  - apply IH. intros v I. apply G. cbn [flat_map]. apply in_or_app. now right.
Qed.

(** ** SELECT *)
Lemma columns_said : forall cols ys, (forall v, In v (flat_map pair_vals cols) -> good v) -> Forall2 (column E) (columns_asked cols) ys ->
  exists x ls, columns_str E r cols = Ok x /\ tells x ls /\ okhead ls /\
    readable (fun px pq => p_list (a_column px pq)) end_columns ls ys.
Proof.
  intros cols ys G F.
  assert (G' : forall p, In p (columns_asked cols) -> good (fst p)).
  { intros p I. destruct cols as [|c cols]; [destruct I as [<-|[]]; apply good_str|]. apply G. apply in_flat_map. exists p. split; [exact I|]. cbn. auto. }
  assert (F' : Forall2 (fun p y => exists t ls, aliased_str E r p = Ok t /\ tells t ls /\ (okhead ls /\ readable a_column end_alias ls y)) (columns_asked cols) ys).
  { clear - F G'. induction F as [|p y l ys H F IH]; [constructor|]. constructor; [apply column_said; [apply G'; now left|exact H]|].
    apply IH. intros q I. apply G'. now right. }
  destruct (mapM_said E _ _ (aliased_str E r) _ _ ys F') as [ts [lss [M [FT [FQ L]]]]].
  assert (NE : columns_asked cols <> []) by (destruct cols; discriminate).
  assert (N : ts <> []) by (eapply length_nil; eauto). assert (N' : lss <> []) by (destruct FT; [contradiction|discriminate]).
  exists (sjoin (lit ", ") ts), (joinx [XSym 44] lss). split; [|split; [now apply comma_tells|split]].
  - unfold columns_str. destruct cols as [|c cols].
    + cbn [columns_asked mapM aliased_str truthy sqlref] in M. injection M as <-. cbn [mapM bind parts_str is_nilb sjoin].
      unfold parts_str. cbn [is_nilb sjoin]. destruct b; reflexivity.
    + cbn [columns_asked] in M. rewrite M. cbn [bind]. destruct ts; [contradiction|reflexivity].
  - destruct FQ as [|l y lss ys [K _] FQ]; [contradiction|]. destruct lss as [|l' lss]; [exact K|]. now apply (okhead_app l).
  - apply readable_list; [|exact N'|cbn; intuition discriminate]. clear - FQ. induction FQ as [|l y lss ys [_ K] F IH]; constructor; auto.
Qed.
Lemma core_said_ok : forall q c, (forall y, In y (sel_vals q) -> good y) -> core_said E q c ->
  exists x ls, tells (lit "SELECT" ++ x) ls /\ (exists u, ls = XWord (lit "SELECT") :: u) /\
    (forall n m, (List.length ls <= n)%nat -> (List.length ls <= S m)%nat -> creads (fst (nested n)) (snd (nested m)) ls c) /\
    forall xo xl xx xf,
      part_ctx (negb (is_nilb (s_order q))) (orders_str E r (lit "ORDER BY") (s_order q)) = Ok xo ->
      part_ctx (limit_set (s_limit q)) (Ok (limit_str (s_limit q))) = Ok xl ->
      part_ctx (out_set (s_out q)) (out_str E r (s_out q)) = Ok xx ->
      part_ctx (s_forupd q) (Ok (lit "FOR UPDATE")) = Ok xf ->
      select_str E r q = Ok (strip ((lit "SELECT" ++ x) ++ xo ++ xl ++ xx ++ xf)).
Proof.
  intros q c G H. inversion H as [op cols tabs wh gr ha ord lim out fu cols' tabs' wh' gr' ha' Fc Ft Cw Fg Ch]; subst.
  unfold sel_vals in G. cbn [s_cols s_tabs s_where s_group s_having s_order s_out] in G.
  assert (Gt : forall v, In v (flat_map table_vals tabs) -> good v) by (intros v I; apply G; rewrite !in_app_iff; auto 12).
  assert (Gw : Forall good wh) by (apply Forall_forall; intros v I; apply G; rewrite !in_app_iff; auto 12).
  assert (Gg : Forall (fun p => good (fst p)) gr) by (apply Forall_forall; intros v I; apply G; rewrite !in_app_iff; auto 12 using in_map).
  assert (Gh : Forall good ha) by (apply Forall_forall; intros v I; apply G; rewrite !in_app_iff; auto 9).
  destruct (columns_said cols cols') as [tc [lc [Xc [Tc [Hc Rc]]]]]; [intros v I; apply G; rewrite !in_app_iff; auto|exact Fc|].
  destruct (list_said E _ _ (table_str E r) a_source end_table tabs tabs' (lit "FROM") (lit "FROM") [] (tables_said_all tabs tabs' Gt Ft))
    as [xt [lt [ot [Xt [Pt [Ct Ot]]]]]]; [cbn; intuition discriminate|split; reflexivity|discriminate|].
  destruct (clause_said_ok E wh wh' (lit "WHERE") Gw Cw ltac:(split; reflexivity) ltac:(discriminate)) as [xw [lw [Xw [Pw Kw]]]].
  destruct (orders_said E gr gr' (lit "GROUP BY") (lit "GROUP") [lit "BY"] Gg Fg ltac:(split; reflexivity) ltac:(discriminate)) as [xg [lg [og [Xg [Pg [Cg Og]]]]]].
  destruct (clause_said_ok E ha ha' (lit "HAVING") Gh Ch ltac:(split; reflexivity) ltac:(discriminate)) as [xh [lh [Xh [Ph Kh]]]].
  destruct (options_part E op _ (part_ctx_ok (selopts_set op) (selopts_str op))) as [os [Pp [_ Kp]]].
  assert (Pp' : part (if selopts_set op then c_sp :: selopts_str op else []) (map XWord (options_said op)) /\
    Forall (fun w => existsb (seqb w) select_options = true) (options_said op)).
  { clear os Pp Kp. destruct (options_part E op _ (part_ctx_ok (selopts_set op) (selopts_str op))) as [os [Pp [Pm Kp]]].
    split.
    - rewrite options_sorted. unfold selopts_set, selopts_str in *.
      destruct (is_nilb (selopts_texts op)) eqn:Q.
      + cbn [negb]. assert (Z : selopts_texts op = []) by (destruct (selopts_texts op); [reflexivity|discriminate]). rewrite Z. apply part_none.
      + cbn [negb] in *. apply part_some. 
        assert (F : forall w, In w (ssort (selopts_texts op)) -> In w (selopts_texts op)) by (intros w; apply ssort_in).
        assert (N : ssort (selopts_texts op) <> []).
        { intros Y. pose proof (ssort_permutation (selopts_texts op)) as Pn. rewrite Y in Pn. apply Permutation_nil in Pn. rewrite Pn in Q. discriminate. }
        clear Q Pp Pm. revert F N. generalize (ssort (selopts_texts op)). intros l F N.
        assert (X : map XWord l = joinx [] (map (fun w => [XWord w]) l)).
        { clear. induction l as [|w l IH]; [reflexivity|]. cbn [map]. rewrite IH. destruct l; reflexivity. }
        rewrite X. apply (tells_join d Hd 32 []); [reflexivity|split; reflexivity|exact N|].
        clear X N. induction l as [|w l IH]; constructor.
        * destruct (options_known op w (F w (or_introl eq_refl))) as [_ [_ [A [B C]]]]. now apply (tells_word d Hd).
        * apply IH. intros w' I. apply F. now right.
    - apply Forall_forall. intros w I. rewrite options_sorted in I. apply (proj1 (ssort_in _ _)) in I. now destruct (options_known op w I). }
  clear os Pp Kp. destruct Pp' as [Pp Kp]. set (os := options_said op) in *.
  exists ((if selopts_set op then c_sp :: selopts_str op else []) ++ (c_sp :: tc) ++ xt ++ xw ++ xg ++ xh).
  exists (XWord (lit "SELECT") :: map XWord os ++ lc ++ lt ++ lw ++ lg ++ lh).
  split; [|split; [eauto|split]].
  - pose proof (tells_parts E [(if selopts_set op then c_sp :: selopts_str op else []); c_sp :: tc; xt; xw; xg; xh] [map XWord os; lc; lt; lw; lg; lh]) as Q.
    specialize (Q ltac:(repeat (constructor; [first [assumption|now apply part_some]|]); constructor) (lit "SELECT") [XWord (lit "SELECT")] (word_tells E (lit "SELECT") eq_refl)).
    cbn [List.concat] in Q. rewrite !app_nil_r in Q. exact Q.
  - intros n m L1 L2. split; [eauto|]. cbn [List.length] in *. rewrite !app_length in *. rewrite <- Ot, <- Og.
    apply core_reads; [exact Kp| |exact Hc| | | |].
    + apply (Rc n m); lia.
    + apply (clause_at _ _ _ _ _ _ n m Ct); lia.
    + apply (clause_at _ _ _ _ _ _ n m Kw); lia.
    + apply (clause_at _ _ _ _ _ _ n m Cg); lia.
    + apply (clause_at _ _ _ _ _ _ n m Kh); lia.
  - cbn [s_order s_limit s_out s_forupd]. intros xo xl xx xf Qo Ql Qx Qf. unfold select_str.
    cbn [s_opts s_cols s_tabs s_where s_group s_having s_order s_limit s_out s_forupd].
    rewrite Xc. cbn [part_ctx bind]. rewrite Xg. cbn [bind]. rewrite Xh. cbn [bind]. rewrite Qx. cbn [bind]. rewrite Ql. cbn [bind].
    rewrite Qo. cbn [bind]. rewrite Qf. cbn [bind]. rewrite part_ctx_ok. cbn [bind].
    unfold tables_str. rewrite Xt. cbn [bind]. rewrite Xw. cbn [bind]. rewrite <- !app_assoc. reflexivity.
Qed.

(** INTO OUTFILE. *)
Lemma given_said_ok : forall o o' kw w ws, (forall v, o = Some v -> good v) -> given_said E o o' -> between kw (map XWord (w :: ws)) ->
  exists x ls, out_opt E r (c_sp :: kw) o = Ok x /\ part x ls /\ clause_in (w :: ws) an_expr dot ls o'.
Proof.
  intros o o' kw w ws G H K. inversion H as [|v e V]; subst.
  - exists [], []. split; [reflexivity|]. split; [apply part_none|apply clause_in_none].
  - destruct (values_said E v e (G v eq_refl) V) as [t [ls [X [T S]]]]. cbn [out_opt]. rewrite X. cbn [bind].
    eexists. exists (map XWord (w :: ws) ++ ls). split; [reflexivity|]. split.
    + apply (part_some d (kw ++ t)). now apply Lead.
    + apply clause_in_some. exact (proj2 S).
Qed.
Definition an_out : NP nout := fun px _ => p_out px.
Definition some_fields : NP (nexpr * option nexpr) := fun px _ => p_fields px.
Lemma part_app : forall x l y m, part x l -> part y m -> part (x ++ y) (l ++ m).
Proof.
  intros x l y m [[-> ->]|[z [-> Z]]] P; [exact P|]. right. exists (z ++ y). split; [reflexivity|]. now apply (tells_part d Hd).
Qed.
Lemma out_said_ok : forall o y, (forall v, In v (out_vals o) -> good v) -> out_said E o y ->
  exists x ls, part_ctx (out_set o) (out_str E r o) = Ok x /\ part x ls /\ clause_in [lit "INTO"; lit "OUTFILE"] an_out end_out ls y.
Proof.
  intros o y G H. inversion H as [o' N|f fl en ln f' fl' ln' V F Ln K]; subst.
  - exists [], []. unfold out_set. rewrite N. split; [reflexivity|]. split; [apply part_none|apply clause_in_none].
  - unfold out_vals in G. cbn [o_file o_fields o_lines o_encl opt_vals] in G.
    assert (Gl : forall v, ln = Some v -> good v) by (intros v ->; apply G; rewrite !in_app_iff; cbn; auto).
    assert (Ge : forall v, en = Some v -> good v) by (intros v ->; apply G; rewrite !in_app_iff; cbn; auto 9).
    assert (Gf : forall v, fl = Some v -> good v) by (intros v ->; apply G; rewrite !in_app_iff; cbn; auto 9).
    destruct (values_said E f f') as [ft [lf [Xf [Tf Sf]]]]; [apply G; cbn; auto|exact V|].
    destruct (given_said_ok ln ln' (lit "LINES TERMINATED BY ") (lit "LINES") [lit "TERMINATED"; lit "BY"] Gl Ln ltac:(split; reflexivity)) as [xl [ll [Xl [Pl Cl]]]].
    assert (Fd : exists xf xe lb, out_opt E r (lit " FIELDS TERMINATED BY ") fl = Ok xf /\ out_opt E r (lit " OPTIONALLY ENCLOSED BY ") en = Ok xe /\
      part (xf ++ xl ++ xe) (lb ++ ll) /\ clause_in [lit "FIELDS"; lit "TERMINATED"; lit "BY"] some_fields (XWord (lit "OPTIONALLY") :: dot) lb fl').
    { inversion F as [|g g' en0 en' Vg Gg]; subst.
      - exists [], [], []. split; [reflexivity|]. split; [reflexivity|]. cbn [app]. rewrite app_nil_r. split; [exact Pl|apply clause_in_none].
      - destruct (values_said E g g' (Gf g eq_refl) Vg) as [gt [lg [Xg [Tg Sg]]]].
        destruct (given_said_ok en en' (lit "OPTIONALLY ENCLOSED BY ") (lit "OPTIONALLY") [lit "ENCLOSED"; lit "BY"] Ge Gg ltac:(split; reflexivity)) as [xe [le [Xe [Pe Ce]]]].
        exists (lit " FIELDS TERMINATED BY " ++ gt), xe, (map XWord [lit "FIELDS"; lit "TERMINATED"; lit "BY"] ++ lg ++ le).
        cbn [out_opt]. rewrite Xg. split; [reflexivity|]. split; [exact Xe|]. split.
        + assert (P1 : part (lit " FIELDS TERMINATED BY " ++ gt) (map XWord [lit "FIELDS"; lit "TERMINATED"; lit "BY"] ++ lg)).
          { apply (part_some d (lit "FIELDS TERMINATED BY " ++ gt)). apply Lead; [split; reflexivity|exact Tg]. }
          pose proof (part_app _ _ _ _ P1 (part_app _ _ _ _ Pe Pl)) as Q. rewrite <- !app_assoc in *.
          replace (xl ++ xe) with (xe ++ xl); [exact Q|].
          destruct K as [-> | ->].
          * cbn [out_opt] in Xe. injection Xe as <-. now rewrite app_nil_r.
          * cbn [out_opt] in Xl. injection Xl as <-. now rewrite app_nil_r.
        + apply clause_in_some. intros n m L1 L2. rewrite app_length in *. apply fields_read; [apply xreads_at; [exact Sg|lia]|].
          apply (clause_at _ _ _ _ _ _ n m Ce); lia. }
    destruct Fd as [xf [xe [lb [Q1 [Q2 [P C]]]]]].
    cbn [out_set o_file part_ctx]. unfold out_str. cbn [o_file o_fields o_lines o_encl out_opt]. rewrite Xf. cbn [bind]. rewrite Q1. cbn [bind].
    change (out_opt E r (lit " LINES TERMINATED BY ") ln) with (out_opt E r (c_sp :: lit "LINES TERMINATED BY ") ln). rewrite Xl. cbn [bind]. rewrite Q2. cbn [bind].
    eexists. exists (map XWord [lit "INTO"; lit "OUTFILE"] ++ lf ++ lb ++ ll). split; [reflexivity|]. split.
    + apply part_some. pose proof (tells_part d Hd _ _ _ _ Tf P) as Q.
      apply (Lead (lit "INTO OUTFILE ") (map XWord [lit "INTO"; lit "OUTFILE"])) in Q; [|split; reflexivity]. rewrite <- !app_assoc in *. exact Q.
    + apply clause_in_some. intros n m L1 L2. rewrite !app_length in *. apply out_reads; [apply xreads_at; [exact Sf|lia]| |].
      * apply (clause_at _ _ _ _ _ _ n m C); lia.
      * apply (clause_at _ _ _ _ _ _ n m Cl); lia.
Qed.

Lemma stripped : forall x ls, tells (lit "SELECT" ++ x) ls -> strip (lit "SELECT" ++ x) = lit "SELECT" ++ x.
Proof. intros x ls T. change (lit "SELECT" ++ x) with (83 :: lit "ELECT" ++ x) in *. apply strip_solid; [reflexivity|exact (proj1 T)]. Qed.
Lemma select_query : forall q y, (forall v, In v (sel_vals q) -> good v) -> query E (VSelect q) y -> qsaid (VSelect q) y.
Proof.
  intros q y G H. inversion H as [q0 c ord out Co Or Ou|]; subst.
  destruct (core_said_ok q c G Co) as [x [ls [T [St [R B]]]]].
  assert (Go : Forall (fun p => good (fst p)) (s_order q)).
  { apply Forall_forall. intros p I. apply G. unfold sel_vals. rewrite !in_app_iff. auto 9 using in_map. }
  destruct (orders_said E (s_order q) ord (lit "ORDER BY") (lit "ORDER") [lit "BY"] Go Or ltac:(split; reflexivity) ltac:(discriminate)) as [xo [lo [oo [Xo [Po [Ko Oo]]]]]].
  pose proof (part_ctx_ok (limit_set (s_limit q)) (limit_str (s_limit q))) as Xl.
  destruct (limit_part E (s_limit q) _ Xl) as [l1 [l2 [Pl [K1 K2]]]].
  destruct (out_said_ok (s_out q) out) as [xx [lx [Xx [Px Kx]]]]; [intros v I; apply G; unfold sel_vals; rewrite !in_app_iff; auto 9|exact Ou|].
  pose proof (part_ctx_ok (s_forupd q) (lit "FOR UPDATE")) as Xf.
  set (xl := if limit_set (s_limit q) then c_sp :: limit_str (s_limit q) else []) in *.
  set (xf := if s_forupd q then c_sp :: lit "FOR UPDATE" else []) in *.
  assert (Pf : part xf (lock_lexemes (s_forupd q))).
  { subst xf. destruct (s_forupd q); [|apply part_none]. apply part_some.
    exact (Mid _ _ c_sp [] [] _ _ (word_tells E (lit "FOR") eq_refl) eq_refl (ltac:(split; reflexivity)) (word_tells E (lit "UPDATE") eq_refl)). }
  pose proof (tells_parts E [xo; xl; xx; xf] [lo; l1 ++ l2; lx; lock_lexemes (s_forupd q)]
    ltac:(repeat (constructor; [assumption|]); constructor) _ _ T) as Q. cbn [List.concat] in Q. rewrite !app_nil_r in Q.
  exists ((lit "SELECT" ++ x) ++ xo ++ xl ++ xx ++ xf), (ls ++ List.concat [] ++ lo ++ l1 ++ l2 ++ lx ++ lock_lexemes (s_forupd q)).
  split; [|split; [|split]].
  - rewrite text_unfold. cbn [str_body]. rewrite (B xo xl xx xf Xo Xl Xx Xf). f_equal.
    rewrite <- app_assoc in *. exact (stripped _ _ Q).
  - cbn [List.concat app]. rewrite <- !app_assoc in Q. rewrite <- !app_assoc. exact Q.
  - destruct St as [u ->]. eexists. reflexivity.
  - intros n m L1 L2 rest Sr. rewrite <- Oo. cbn [List.concat app] in L1, L2. rewrite !app_length in L1, L2.
    apply query_reads; [apply R; lia|constructor| |exact K1|exact K2| |exact Sr].
    + apply (clause_at _ _ _ _ _ _ n m Ko); lia.
    + apply (clause_at _ _ _ _ _ _ n m Kx); lia.
Qed.
Lemma chain_step : forall x, (forall y, (depth y < depth x)%nat -> good y) -> forall c us, chain E x c us -> hsaid E x c us.
Proof.
  intros x IH c us H.
  assert (Ch : forall y, In y (children x) -> good y) by (intros y I; apply IH, children_depth, I).
  inversion H as [q c0 Co No Nl Nx Nf|t y z c0 us0 c' Hy Hz]; subst.
  - destruct (core_said_ok q c Ch Co) as [x [ls [T [St [R B]]]]].
    assert (X : select_str E r q = Ok (strip ((lit "SELECT" ++ x) ++ [] ++ [] ++ [] ++ []))).
    { apply B; rewrite ?No, ?Nl, ?Nf; try reflexivity. unfold out_set. now rewrite Nx. }
    cbn [app] in X. rewrite app_nil_r in X. change (c_nl :: []) with [c_nl] in X.
    exists (lit "SELECT" ++ x), ls, []. split; [|split; [|split; [exact St|]]].
    + rewrite text_unfold. cbn [str_body]. rewrite X. f_equal. exact (stripped _ _ T).
    + cbn [List.concat]. rewrite app_nil_r. exact T.
    + intros n m L1 L2. cbn [List.concat] in *. rewrite app_nil_r in *. split; [now apply R|constructor].
  - assert (Gy : good y) by (apply Ch; cbn; auto). assert (Gz : good z) by (apply Ch; cbn; auto).
    destruct (proj1 (proj2 (proj2 Gy)) c us0 Hy) as [ty [ly [lsy [Xy [Ty [Sy Ry]]]]]].
    destruct (proj1 (proj2 (proj2 Gz)) c' [] Hz) as [tz [lz [lsz [Xz [Tz [Sz Rz]]]]]].
    assert (Z : lsz = []).
    { destruct (Rz (List.length (lz ++ List.concat lsz)) (List.length (lz ++ List.concat lsz))) as [_ U]; [lia|lia|]. inversion U. reflexivity. }
    subst lsz. cbn [List.concat] in *. rewrite app_nil_r in *.
    set (uw := match t with UUnion => lit " UNION " | UAll => lit " UNION ALL " end).
    set (ul := XWord (lit "UNION") :: (if is_all t then [XWord (lit "ALL")] else [])).
    assert (Tu : tells (ty ++ uw ++ tz) ((ly ++ List.concat lsy) ++ ul ++ lz)).
    { subst uw ul. destruct t.
      - exact (Mid _ _ c_sp (lit "UNION ") [XWord (lit "UNION")] _ _ Ty eq_refl (ltac:(split; reflexivity)) Tz).
      - exact (Mid _ _ c_sp (lit "UNION ALL ") [XWord (lit "UNION"); XWord (lit "ALL")] _ _ Ty eq_refl (ltac:(split; reflexivity)) Tz). }
    exists (ty ++ uw ++ tz), ly, (lsy ++ [union_lexemes (is_all t) lz]).
    assert (Cc : List.concat (lsy ++ [union_lexemes (is_all t) lz]) = List.concat lsy ++ ul ++ lz).
    { rewrite concat_app. cbn [List.concat]. rewrite app_nil_r. reflexivity. }
    rewrite Cc. split; [|split; [|split; [exact Sy|]]].
    + rewrite text_unfold. cbn [str_body]. rewrite Xy, Xz. reflexivity.
    + rewrite <- app_assoc in Tu. exact Tu.
    + intros n m L1 L2. rewrite !app_length in *. destruct (Ry n m) as [R1 R2]; [rewrite ?app_length; lia|rewrite ?app_length; lia|].
      destruct (Rz n m) as [R3 _]; [lia|lia|]. split; [exact R1|]. apply Forall2_app; [exact R2|]. constructor; [|constructor]. eauto 6.
Qed.
Lemma query_step : forall x, (forall y, (depth y < depth x)%nat -> good y) -> forall q, query E x q -> qsaid x q.
Proof.
  intros x IH q H.
  assert (Ch : forall y, In y (children x) -> good y) by (intros y I; apply IH, children_depth, I).
  inversion H as [q0 c ord out Co Or Ou|t y z c us C]; subst.
  - now apply select_query.
  - destruct (chain_step _ IH c us C) as [tx [lc [lss [X [T [St R]]]]]]. exists tx, (lc ++ List.concat lss). split; [exact X|]. split; [exact T|].
    split; [destruct St as [u ->]; eexists; reflexivity|]. intros n m L1 L2 rest Sr. destruct (R n m L1 L2) as [R1 R2].
    pose proof (query_reads (fst (nested n)) (snd (nested m)) lc c lss us [] None [] None [] None [] None false R1 R2
      (clause_none_of _ _ _ _) (clause_none_of _ _ _ _) (clause_none_of _ _ _ _) (clause_none_of _ _ _ _) rest Sr) as Q.
    cbn [lock_lexemes app or_nil] in Q. rewrite app_nil_r in Q. exact Q.
Qed.
Theorem all_good : forall x, good x.
Proof.
  assert (H : forall k x, (depth x < k)%nat -> good x).
  { induction k as [|k IH]; intros x L; [lia|].
    assert (IH' : forall y, (depth y < depth x)%nat -> good y) by (intros y D; apply IH; lia).
    pose proof (query_step x IH') as HQ. split; [exact (object_step x IH' HQ)|]. split; [exact HQ|].
    split; [exact (chain_step x IH')|exact (condition_step E x IH')]. }
  intros x. apply (H (S (depth x))). lia.
Qed.
End All.
