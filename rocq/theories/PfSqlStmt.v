(** Proofs for C56-C59: whole statements. *)
From Coq Require Import Lia Permutation.
From Verif Require Import Base BaseFacts NumFmt Value Regex Backend Eq Render RenderFacts
  SpecLex SpecRef SpecRead SpecLogic SpecConds BoolFacts PfBool RefFacts LiteralFacts PfLiterals PfHistories SpecWhole PfWhole PfWholeText
  PfWholeClauses PfStatements SpecSql SpecServer PfSql PfSqlParse PfSqlCond PfSqlTree PfSqlClauses.
Open Scope N_scope.

Lemma nilb_false : forall A (l : list A), l <> [] -> is_nilb l = false.
Proof. intros A [|x l] H; [contradiction|reflexivity]. Qed.
Lemma flag_reads : forall w kws (v : bool) rest, stops [XWord w] rest ->
  p_flag (w :: kws) ((if v then map XWord (w :: kws) else []) ++ rest) = Some (v, rest).
Proof.
  intros w kws v rest S. unfold p_flag, p_clause. destruct v.
  - fold (opens (w :: kws) (map XWord (w :: kws) ++ rest)). now rewrite opens_words.
  - cbn [app fold_left]. rewrite (keyword_stop w [XWord w]) by (simpl; auto). now rewrite opens_none.
Qed.
Lemma int_reads : forall b z, reads p_int [] (literal_lexemes b (LInt z)) z.
Proof.
  intros b z. destruct (atom_reads b (LInt z) Logic.I eq_refl) as [NE R]. split; [exact NE|]. intros rest S. unfold p_int. now rewrite R.
Qed.
Lemma options_read : forall os rest, Forall (fun w => existsb (seqb w) select_options = true) os ->
  (forall w u, rest = XWord w :: u -> existsb (seqb w) select_options = false) ->
  p_options (map XWord os ++ rest) = (os, rest).
Proof.
  intros os rest F H. induction F as [|w os W F IH].
  - cbn [map app]. destruct rest as [|[s|s|w|c|] u]; try reflexivity. cbn [p_options]. now rewrite (H w u eq_refl).
  - cbn [map app p_options]. now rewrite W, IH.
Qed.
Lemma ssort_permutation : forall l, Permutation (ssort l) l.
Proof.
  assert (I : forall x l, Permutation (sinsert x l) (x :: l)).
  { induction l as [|y l IH]; [reflexivity|]. cbn [sinsert]. destruct (sltb x y); [reflexivity|].
    rewrite IH. apply perm_swap. }
  induction l as [|x l IH]; [reflexivity|]. cbn [ssort]. rewrite I. now apply perm_skip.
Qed.
Lemma options_known : forall o w, In w (selopts_texts o) -> existsb (seqb w) select_options = true /\ between (w ++ [c_sp]) [XWord w] /\ w <> [] /\
  forallb word_char w = true /\ is_space (last w 0) = false.
Proof.
  intros o w I. assert (X : In w select_options).
  { unfold selopts_texts in I. rewrite !in_app_iff in I. destruct (so_cache o), (so_dup o), (so_small o), (so_big o), (so_buffer o), (so_calc o), (so_straight o), (so_high o);
      cbn [In] in I; unfold select_options; cbn [In]; tauto. }
  unfold select_options in X. cbn [In] in X.
  repeat (destruct X as [<-|X]; [repeat split; try reflexivity; discriminate|]). contradiction.
Qed.

Section Statements.
Context (E : env).
Notation b := (e_be E).
Notation d := (dialect_of b).
Notation tells := (tells d).
Notation part := (part d).
Notation Hd := (ident_34_96 E).
Notation r := (text E).
Notation Mid := (tells_mid d Hd).
Notation Lead := (tells_lead d Hd).

Lemma tells_parts : forall ys ms, Forall2 part ys ms -> forall x l, tells x l -> tells (x ++ List.concat ys) (l ++ List.concat ms).
Proof.
  intros ys ms F. induction F as [|y m ys ms P F IH]; intros x l T; cbn [List.concat]; [now rewrite !app_nil_r|].
  rewrite !app_assoc. apply IH. now apply (tells_part d Hd).
Qed.
Lemma understood_text : forall w x l st, match w with c :: _ => is_space c = false | [] => False end -> tells (w ++ x) l -> p_statement l = Some (st, []) ->
  understood d (strip (w ++ x)) = Some st.
Proof.
  intros w x l st W T P. destruct w as [|c w]; [contradiction|]. cbn [app] in *. rewrite strip_solid; [|exact W|exact (proj1 T)].
  unfold understood. rewrite (tells_lexemes d _ _ T). now rewrite P.
Qed.

(** ** Clauses *)
Lemma list_clause : forall A (B : Type) (f : A -> res str) (p : parser B) bad (P : A -> B -> Prop) l kw w ws x,
  ~ In (XSym 44) bad -> between (kw ++ [c_sp]) (map XWord (w :: ws)) -> kw <> [] ->
  (forall x u, In x l -> f x = Ok u -> exists ls y, tells u ls /\ P x y /\ reads p bad ls y) ->
  part_ctx (negb (is_nilb l)) (do ts <- mapM f l; Ok (parts_str kw [] (lit ", ") ts)) = Ok x ->
  exists ls o, part x ls /\ clause_of (w :: ws) (p_list p) (XSym 44 :: bad) ls o /\ Forall2 P l (or_nil o).
Proof.
  intros A B f p bad P l kw w ws x NB K NK H T. destruct l as [|a l].
  - injection T as <-. exists [], None. split; [apply part_none|]. split; [apply clause_none_of|constructor].
  - cbn [is_nilb negb part_ctx] in T. destruct (do ts <- mapM f (a :: l); Ok (parts_str kw [] (lit ", ") ts)) as [t|] eqn:Q; [|discriminate].
    cbn [bind] in T. injection T as <-.
    destruct (parts_tell E A B f p bad P (a :: l) kw (w :: ws) [] t ltac:(discriminate) NB H Q (or_intror (Logic.conj NK K))) as [ls [ys [T [F R]]]].
    exists (map XWord (w :: ws) ++ ls), (Some ys). split; [now apply part_some|]. split; [now apply clause_some_of|exact F].
Qed.
Lemma conds_clause : forall ps w x, Forall (cond_ok b) ps -> between (w ++ [c_sp]) [XWord w] -> w <> [] ->
  part_ctx (negb (is_nilb ps)) (conds_str r w ps) = Ok x ->
  exists ls o, part x ls /\ clause_of [w] p_search (stop_at Search) ls o /\ says_conditions b ps o.
Proof.
  intros ps w x H K NK T. destruct ps as [|c ps].
  - injection T as <-. exists [], None. split; [apply part_none|]. split; [apply clause_none_of|exact Logic.I].
  - cbn [is_nilb negb part_ctx] in T. unfold conds_str in T. destruct (mapM r (c :: ps)) as [ts|] eqn:M; [|discriminate].
    cbn [bind] in T. injection T as <-.
    assert (Q : conds_str r [] (c :: ps) = Ok (sjoin (lit " AND ") ts)).
    { unfold conds_str. rewrite M. cbn [bind]. unfold parts_str. destruct ts as [|t0 ts]; [|reflexivity].
      cbn [mapM] in M. destruct (r c); [|discriminate]. destruct (mapM r ps); discriminate. }
    destruct (conditions_tell E (c :: ps) _ ltac:(discriminate) H Q) as [ls [e [T [P S]]]].
    exists (XWord w :: ls), (Some e). split; [|split; [|exact S]].
    + apply part_some. unfold parts_str. destruct ts as [|t0 ts].
      * cbn [mapM] in M. destruct (r c); [|discriminate]. destruct (mapM r ps); discriminate.
      * cbn [is_nilb]. destruct w; [contradiction|]. cbn [is_nilb]. pose proof (Lead _ _ _ _ K T) as Q1. rewrite <- app_assoc in Q1. exact Q1.
    + apply (clause_some_of _ [w]). now apply search_reads.
Qed.
Lemma tables_tell : forall l t, l <> [] -> Forall (table_fine b) l -> tables_str E r [] l = Ok t ->
  exists ls ys, tells t ls /\ Forall2 (says_table b) l ys /\ reads (p_list p_source) (XSym 44 :: end_table) ls ys /\
    exists x v, ls = x :: v /\ forall w, x <> XWord w.
Proof.
  intros l t NE F T.
  destruct (parts_tell E _ _ (table_str E r) p_source end_table
    (fun x y => says_table b x y) l [] [] [] t NE) as [ls [ys [T1 [F1 R1]]]].
  - cbn. intuition discriminate.
  - intros x u I X. rewrite Forall_forall in F. destruct (table_tells E x u (F x I) X) as [ls [y [A [B [C _]]]]]. eauto.
  - exact T.
  - left; auto.
  - exists ls, ys. cbn [map app] in T1. repeat (split; [assumption|]).
    destruct l as [|a l]; [contradiction|]. inversion F; subst.
    (* the first lexeme: read back from the first table *)
    destruct R1 as [N1 R1]. specialize (R1 [] Logic.I). rewrite app_nil_r in R1. unfold p_list in R1.
    destruct ls as [|x v]; [contradiction|]. exists x, v. split; [reflexivity|]. intros w ->. discriminate R1.
Qed.
Lemma tables_clause : forall l x, Forall (table_fine b) l -> part_ctx (negb (is_nilb l)) (tables_str E r (lit "FROM") l) = Ok x ->
  exists ls o, part x ls /\ clause_of [lit "FROM"] (p_list p_source) (XSym 44 :: end_table) ls o /\ Forall2 (says_table b) l (or_nil o).
Proof.
  intros l x F T. apply (list_clause _ _ (table_str E r) p_source end_table _ l (lit "FROM") (lit "FROM") [] x).
  - cbn. intuition discriminate.
  - split; reflexivity.
  - discriminate.
  - intros a u I X. rewrite Forall_forall in F. destruct (table_tells E a u (F a I) X) as [ls [y [A [B [C _]]]]]. eauto.
  - exact T.
Qed.
Definition end_order := [XSym 46; XWord (lit "DESC")].
Lemma orders_clause : forall l kw w ws x, Forall (fun p => expr_ok b (fst p)) l -> between (kw ++ [c_sp]) (map XWord (w :: ws)) -> kw <> [] ->
  part_ctx (negb (is_nilb l)) (orders_str E r kw l) = Ok x ->
  exists ls o, part x ls /\ clause_of (w :: ws) (p_list p_ordering) (XSym 44 :: end_order) ls o /\ Forall2 says_order l (or_nil o).
Proof.
  intros l kw w ws x F K NK T. apply (list_clause _ _ (order_str E r) p_ordering end_order _ l kw w ws x).
  - cbn. intuition discriminate.
  - exact K.
  - exact NK.
  - intros a u I X. rewrite Forall_forall in F. exact (order_tells E a u (F a I) X).
  - exact T.
Qed.
Lemma limit_part : forall l x, part_ctx (limit_set l) (Ok (limit_str l)) = Ok x ->
  exists l1 l2, part x (l1 ++ l2) /\ clause_of [lit "LIMIT"] p_int [] l1 (l_limit l) /\ clause_of [lit "OFFSET"] p_int [] l2 (l_offset l).
Proof.
  intros [a o] x T. cbn [l_limit l_offset] in *.
  assert (K : forall z w, between (w ++ [c_sp]) [XWord w] -> tells ((w ++ [c_sp]) ++ z_dec z) (XWord w :: literal_lexemes b (LInt z))).
  { intros z w W. exact (Lead _ _ _ _ W (tells_int E z)). }
  assert (C : forall z w, clause_of [w] p_int [] (XWord w :: literal_lexemes b (LInt z)) (Some z)).
  { intros z w. apply (clause_some_of _ [w]). apply int_reads. }
  destruct a as [a|], o as [o|]; injection T as <-.
  - exists (XWord (lit "LIMIT") :: literal_lexemes b (LInt a)), (XWord (lit "OFFSET") :: literal_lexemes b (LInt o)). split; [|split; apply C].
    apply part_some. cbn [limit_str l_limit l_offset].
    pose proof (Mid _ _ c_sp [] [] _ _ (K a (lit "LIMIT") ltac:(split; reflexivity)) eq_refl (ltac:(split; reflexivity)) (K o (lit "OFFSET") ltac:(split; reflexivity))) as Q.
    rewrite <- !app_assoc in Q. unfold limit_str. cbn [l_limit l_offset]. replace (is_nilb (lit "LIMIT " ++ z_dec a)) with false by reflexivity. rewrite <- !app_assoc. exact Q.
  - exists (XWord (lit "LIMIT") :: literal_lexemes b (LInt a)), []. rewrite app_nil_r. split; [|split; [apply C|apply clause_none_of]].
    apply part_some. exact (K a (lit "LIMIT") ltac:(split; reflexivity)).
  - exists [], (XWord (lit "OFFSET") :: literal_lexemes b (LInt o)). split; [|split; [apply clause_none_of|apply C]].
    apply part_some. exact (K o (lit "OFFSET") ltac:(split; reflexivity)).
  - exists [], []. split; [apply part_none|split; apply clause_none_of].
Qed.
Lemma options_part : forall o x, part_ctx (selopts_set o) (Ok (selopts_str o)) = Ok x ->
  exists os, part x (map XWord os) /\ Permutation os (options_asked o) /\ Forall (fun w => existsb (seqb w) select_options = true) os.
Proof.
  intros o x T. exists (ssort (selopts_texts o)).
  assert (F : forall w, In w (ssort (selopts_texts o)) -> In w (selopts_texts o)) by (intros w; apply ssort_in).
  split; [|split; [exact (ssort_permutation (selopts_texts o))|]].
  - unfold selopts_set, selopts_str in T.
    pose proof (ssort_permutation (selopts_texts o)) as Pm.
    destruct (is_nilb (selopts_texts o)) eqn:Q.
    + injection T as <-. assert (Z : selopts_texts o = []) by (destruct (selopts_texts o); [reflexivity|discriminate]). rewrite Z. apply part_none.
    + cbn [negb part_ctx bind] in T. injection T as <-. apply part_some.
      assert (N : ssort (selopts_texts o) <> []) by (intros Y; rewrite Y in Pm; apply Permutation_nil in Pm; rewrite Pm in Q; discriminate).
      clear Q Pm. revert F N. generalize (ssort (selopts_texts o)). intros l F N.
      assert (X : map XWord l = joinx [] (map (fun w => [XWord w]) l)).
      { clear. induction l as [|w l IH]; [reflexivity|]. cbn [map]. rewrite IH. destruct l; reflexivity. }
      rewrite X. apply (tells_join d Hd 32 []); [reflexivity|split; reflexivity|exact N|].
      clear X N. induction l as [|w l IH]; constructor.
      * destruct (options_known o w (F w (or_introl eq_refl))) as [_ [_ [A [B C]]]]. now apply (tells_word d Hd).
      * apply IH. intros w' I. apply F. now right.
  - apply Forall_forall. intros w I. now destruct (options_known o w (F w I)).
Qed.

(** ** SELECT *)
Definition end_columns := XSym 44 :: end_alias.
Lemma columns_part : forall cols t, Forall (fun p => expr_ok b (fst p) /\ alias_fine b (snd p)) cols -> columns_str E r cols = Ok t ->
  exists ls ys, tells t ls /\ Forall2 says_column (columns_asked cols) ys /\ reads (p_list (p_aliased p_expr)) end_columns ls ys /\
    forall w u rest, ls ++ rest = XWord w :: u -> existsb (seqb w) select_options = false.
Proof.
  intros cols t F T.
  assert (Hs : Forall (fun p => expr_ok b (fst p) /\ alias_fine b (snd p)) (columns_asked cols)).
  { destruct cols; [|exact F]. constructor; [|constructor]. split; [|exact Logic.I]. cbn [fst expr_ok name_ok].
    unfold good_name. destruct b; vm_compute; repeat split; try discriminate; intuition discriminate. }
  assert (T' : (do ts <- mapM (aliased_str E r) (columns_asked cols); Ok (parts_str [] (lit "*") (lit ", ") ts)) = Ok t).
  { destruct cols; [|exact T]. injection T as <-. cbn [columns_asked mapM aliased_str truthy sqlref bind parts_str is_nilb sjoin].
    unfold parts_str. cbn [is_nilb sjoin]. destruct b; reflexivity. }
  assert (NE : columns_asked cols <> []) by (destruct cols; discriminate).
  assert (C : forall x u, In x (columns_asked cols) -> aliased_str E r x = Ok u ->
    exists ls y, tells u ls /\ says_column x y /\ reads (p_aliased p_expr) end_alias ls y /\
      exists x u, ls = x :: u /\ ((exists s, x = XId s) \/ x = XSym 42 \/ exists f, x = XWord f /\ known f)).
  { intros [n a] u I X. rewrite Forall_forall in Hs. destruct (Hs (n, a) I) as [H1 H2].
    destruct (column_tells E n a u H1 H2 X) as [ls [e [o [A [B [G K]]]]]]. exists ls, (e, o). auto. }
  revert NE C T'. generalize (columns_asked cols). clear - t. intros l NE C T.
  destruct (mapM (aliased_str E r) l) as [ts|] eqn:M; [|discriminate]. cbn [bind] in T. injection T as <-.
  destruct l as [|p l]; [contradiction|]. cbn [mapM] in M. destruct (aliased_str E r p) as [u|] eqn:Fx; [|discriminate]. cbn [bind] in M.
  destruct (mapM (aliased_str E r) l) as [us|] eqn:Fl; [|discriminate]. cbn [bind] in M. injection M as <-.
  destruct (C p u (or_introl eq_refl) Fx) as [ls [y [A [B [G [x [v [-> K]]]]]]]].
  assert (X : exists lss ys, Forall2 tells us lss /\ Forall2 says_column l ys /\ Forall2 (reads (p_aliased p_expr) end_alias) lss ys).
  { revert us Fl C. clear. intros us M C. assert (C' := fun x u I => C x u (or_intror I)). clear C. revert us M C'.
    induction l as [|x l IH]; intros us M C.
    - injection M as <-. exists [], []. repeat constructor.
    - cbn [mapM] in M. destruct (aliased_str E r x) as [u|] eqn:Fx; [|discriminate]. cbn [bind] in M.
      destruct (mapM (aliased_str E r) l) as [vs|] eqn:Fl; [|discriminate]. cbn [bind] in M. injection M as <-.
      destruct (C x u (or_introl eq_refl) Fx) as [ls [y [T1 [P1 [R1 _]]]]].
      destruct (IH vs eq_refl (fun x' u' I => C x' u' (or_intror I))) as [lss [ys [T2 [P2 R2]]]].
      exists (ls :: lss), (y :: ys). repeat split; constructor; assumption. }
  destruct X as [lss [ys [T1 [P1 R1]]]].
  exists (joinx [XSym 44] ((x :: v) :: lss)), (y :: ys). split; [|split; [|split]].
  - unfold parts_str. cbn [is_nilb]. apply (tells_join d Hd 44 [32]); [reflexivity|split; reflexivity|discriminate|now constructor].
  - now constructor.
  - apply list_reads; [now constructor|discriminate|]. cbn. intuition discriminate.
  - intros w z rest Y. destruct (joinx_first [XSym 44] x v lss) as [v' Q]. rewrite Q in Y. cbn [app] in Y. injection Y as Y _. subst x.
    destruct K as [[s K]|[K|[f [K K']]]]; try discriminate. injection K as ->. apply K'.
Qed.

(** The text of a select, also where UNION follows. *)
Lemma select_told : forall q t, select_fine b q -> r (VSelect q) = Ok t ->
  exists st l, says_select b q st /\ tells t l /\ forall rest, starts [lit "UNION"] rest -> p_statement (l ++ rest) = Some (st, rest).
Proof.
  intros [op cols tabs wh gr ha ord [lim off] out fu] t [Hc [Ht [Hw [Hg [Hh [Ho Hf]]]]]] T.
  rewrite text_unfold in T. cbn [str_body s_cols s_tabs s_where s_group s_having s_order s_out] in *. unfold select_str in T.
  cbn [s_opts s_cols s_tabs s_where s_group s_having s_order s_limit s_out s_forupd] in T.
  destruct (part_ctx true (columns_str E r cols)) as [x_c|] eqn:Q_c; [|discriminate]. cbn [bind] in T.
  destruct (part_ctx (negb (is_nilb gr)) (orders_str E r (lit "GROUP BY") gr)) as [x_g|] eqn:Q_g; [|discriminate]. cbn [bind] in T.
  destruct (part_ctx (negb (is_nilb ha)) (conds_str r (lit "HAVING") ha)) as [x_h|] eqn:Q_h; [|discriminate]. cbn [bind] in T.
  unfold out_set in T. rewrite Hf in T. cbn [part_ctx bind] in T.
  destruct (part_ctx (limit_set (MkLimits lim off)) (Ok (limit_str (MkLimits lim off)))) as [x_l|] eqn:Q_l; [|discriminate]. cbn [bind] in T.
  destruct (part_ctx (negb (is_nilb ord)) (orders_str E r (lit "ORDER BY") ord)) as [x_o|] eqn:Q_o; [|discriminate]. cbn [bind] in T.
  destruct (part_ctx fu (Ok (lit "FOR UPDATE"))) as [x_f|] eqn:Q_f; [|discriminate]. cbn [bind] in T.
  destruct (part_ctx (selopts_set op) (Ok (selopts_str op))) as [x_p|] eqn:Q_p; [|discriminate]. cbn [bind] in T.
  destruct (part_ctx (negb (is_nilb tabs)) (tables_str E r (lit "FROM") tabs)) as [x_t|] eqn:Q_t; [|discriminate]. cbn [bind] in T.
  destruct (part_ctx (negb (is_nilb wh)) (conds_str r (lit "WHERE") wh)) as [x_w|] eqn:Q_w; [|discriminate]. cbn [bind] in T.
  injection T as <-.
  cbn [part_ctx] in Q_c. destruct (columns_str E r cols) as [tc|] eqn:Q_c'; [|discriminate]. cbn [bind] in Q_c. injection Q_c as <-.
  destruct (columns_part cols tc Hc Q_c') as [lc [cs [Tc [Sc [Rc Kc]]]]].
  destruct (orders_clause gr (lit "GROUP BY") (lit "GROUP") [lit "BY"] x_g Hg ltac:(split; reflexivity) ltac:(discriminate) Q_g) as [lg [og [Pg [Cg Sg]]]].
  destruct (conds_clause ha (lit "HAVING") x_h Hh ltac:(split; reflexivity) ltac:(discriminate) Q_h) as [lh [oh [Ph [Ch Sh]]]].
  destruct (limit_part (MkLimits lim off) x_l Q_l) as [l1 [l2 [Pl [C1 C2]]]]. cbn [l_limit l_offset] in C1, C2.
  destruct (orders_clause ord (lit "ORDER BY") (lit "ORDER") [lit "BY"] x_o Ho ltac:(split; reflexivity) ltac:(discriminate) Q_o) as [lo [oo [Po [Co So]]]].
  destruct (options_part op x_p Q_p) as [os [Pp [Sp Kp]]].
  destruct (tables_clause tabs x_t Ht Q_t) as [lt [ot [Pt [Ct St]]]].
  destruct (conds_clause wh (lit "WHERE") x_w Hw ltac:(split; reflexivity) ltac:(discriminate) Q_w) as [lw [ow [Pw [Cw Sw]]]].
  set (lf := if fu then map XWord [lit "FOR"; lit "UPDATE"] else []).
  assert (Pf : part x_f lf).
  { subst lf. destruct fu; injection Q_f as <-; [|apply part_none]. apply part_some.
    exact (Mid _ _ c_sp [] [] _ _ (word_tells E (lit "FOR") eq_refl) eq_refl (ltac:(split; reflexivity)) (word_tells E (lit "UPDATE") eq_refl)). }
  set (body := x_p ++ (c_sp :: tc) ++ x_t ++ x_w ++ x_g ++ x_h ++ x_o ++ x_l ++ x_f).
  exists (StSelect os cs (or_nil ot) ow (or_nil og) oh (or_nil oo) lim off fu).
  exists (XWord (lit "SELECT") :: map XWord os ++ lc ++ lt ++ lw ++ lg ++ lh ++ lo ++ (l1 ++ l2) ++ lf).
  split; [now constructor|]. split.
  - assert (TT : tells (lit "SELECT" ++ body) (XWord (lit "SELECT") :: map XWord os ++ lc ++ lt ++ lw ++ lg ++ lh ++ lo ++ (l1 ++ l2) ++ lf)).
    { pose proof (tells_parts [x_p; c_sp :: tc; x_t; x_w; x_g; x_h; x_o; x_l; x_f] [map XWord os; lc; lt; lw; lg; lh; lo; l1 ++ l2; lf]) as Q.
      specialize (Q ltac:(repeat (constructor; [first [assumption|apply part_none|now apply part_some]|]); constructor) (lit "SELECT") [XWord (lit "SELECT")] (word_tells E (lit "SELECT") eq_refl)).
      cbn [List.concat] in Q. rewrite !app_nil_r in Q. exact Q. }
    change (tells (strip (lit "SELECT" ++ body)) (XWord (lit "SELECT") :: map XWord os ++ lc ++ lt ++ lw ++ lg ++ lh ++ lo ++ (l1 ++ l2) ++ lf)).
    replace (strip (lit "SELECT" ++ body)) with (lit "SELECT" ++ body); [exact TT|]. symmetry. apply (strip_solid 83); [reflexivity|exact (proj1 TT)].
  - intros rest U. assert (S9 : starts [lit "FOR"; lit "UNION"] (lf ++ rest)).
    { apply (starts_app [lit "FOR"] [lit "UNION"]); [|exact U]. subst lf. destruct fu; [apply starts_word; now left|now left]. }
    pose proof (starts_app _ _ _ _ (clause_starts _ _ _ _ _ _ _ C2) S9) as S8.
    pose proof (starts_app _ _ _ _ (clause_starts _ _ _ _ _ _ _ C1) S8) as S7.
    pose proof (starts_app _ _ _ _ (clause_starts _ _ _ _ _ _ _ Co) S7) as S6.
    pose proof (starts_app _ _ _ _ (clause_starts _ _ _ _ _ _ _ Ch) S6) as S5.
    pose proof (starts_app _ _ _ _ (clause_starts _ _ _ _ _ _ _ Cg) S5) as S4.
    pose proof (starts_app _ _ _ _ (clause_starts _ _ _ _ _ _ _ Cw) S4) as S3.
    pose proof (starts_app _ _ _ _ (clause_starts _ _ _ _ _ _ _ Ct) S3) as S2.
    cbn [app]. unfold p_statement. replace (seqb (lit "SELECT") (lit "SELECT")) with true by reflexivity. cbv iota.
    rewrite <- !app_assoc. rewrite options_read; [|exact Kp|intros w u X; exact (Kc w u _ X)].
    rewrite (proj2 Rc) by (eapply starts_stops; [exact S2|reflexivity]).
    rewrite (clause_reads _ _ _ _ _ _ _ _ Ct) by (eapply starts_stops; [exact S3|reflexivity]).
    rewrite (clause_reads _ _ _ _ _ _ _ _ Cw) by (eapply starts_stops; [exact S4|reflexivity]).
    rewrite (clause_reads _ _ _ _ _ _ _ _ Cg) by (eapply starts_stops; [exact S5|reflexivity]).
    rewrite (clause_reads _ _ _ _ _ _ _ _ Ch) by (eapply starts_stops; [exact S6|reflexivity]).
    rewrite (clause_reads _ _ _ _ _ _ _ _ Co) by (eapply starts_stops; [exact S7|reflexivity]).
    rewrite (clause_reads _ _ _ _ _ _ _ _ C1) by (eapply starts_stops; [exact S8|reflexivity]).
    rewrite (clause_reads _ _ _ _ _ _ _ _ C2) by (eapply starts_stops; [exact S9|reflexivity]).
    pose proof (flag_reads (lit "FOR") [lit "UPDATE"] fu rest) as Q. fold lf in Q. rewrite Q; [reflexivity|].
    eapply starts_stops; [exact U|reflexivity].
Qed.
Lemma select_understood : forall q t, select_fine b q -> r (VSelect q) = Ok t ->
  exists st, understood d t = Some st /\ says_select b q st.
Proof.
  intros q t F T. destruct (select_told q t F T) as [st [l [S [L P]]]]. exists st. split; [|exact S].
  unfold understood. rewrite (tells_lexemes d _ _ L). specialize (P [] ltac:(now left)). rewrite app_nil_r in P. now rewrite P.
Qed.

(** ** DELETE *)
Lemma ignore_part : forall v x, part_ctx v (Ok (lit "IGNORE")) = Ok x -> part x (if v then map XWord [lit "IGNORE"] else []).
Proof.
  intros v x T. destruct v; injection T as <-; [|apply part_none]. apply part_some. exact (word_tells E (lit "IGNORE") eq_refl).
Qed.
Lemma nonword_stops : forall x v w, (forall w', x <> XWord w') -> stops [XWord w] (x :: v).
Proof. intros x v w H [X|[]]. now apply (H w). Qed.
Lemma delete_understood : forall q t, delete_fine b q -> r (VDelete q) = Ok t ->
  exists st, understood d t = Some st /\ says_delete b q st.
Proof.
  intros [ig tabs refs wh al] t [Ht [NR [Hr Hw]]] T.
  rewrite text_unfold in T. cbn [str_body d_tabs d_refs d_where] in *. unfold delete_str in T. cbn [d_ignore d_tabs d_refs d_where d_allow] in T.
  destruct (is_nilb wh && negb al); [discriminate|].
  destruct (part_ctx ig (Ok (lit "IGNORE"))) as [x_i|] eqn:Q_i; [|discriminate]. cbn [bind] in T.
  destruct (part_ctx (negb (is_nilb refs)) (tables_str E r [] refs)) as [x_r|] eqn:Q_r; [|discriminate]. cbn [bind] in T.
  destruct (part_ctx (negb (is_nilb tabs)) (tables_str E r [] tabs)) as [x_t|] eqn:Q_t; [|discriminate]. cbn [bind] in T.
  destruct (part_ctx (negb (is_nilb wh)) (conds_str r (lit "WHERE") wh)) as [x_w|] eqn:Q_w; [|discriminate]. cbn [bind] in T.
  injection T as <-.
  pose proof (ignore_part ig x_i Q_i) as Pi.
  destruct (conds_clause wh (lit "WHERE") x_w Hw ltac:(split; reflexivity) ltac:(discriminate) Q_w) as [lw [ow [Pw [Cw Sw]]]].
  rewrite nilb_false in Q_r by exact NR. cbn [negb part_ctx] in Q_r. destruct (tables_str E r [] refs) as [tr|] eqn:Q_r'; [|discriminate].
  cbn [bind] in Q_r. injection Q_r as <-.
  destruct (tables_tell refs tr NR Hr Q_r') as [lr [rs [Tr [Sr [Rr _]]]]].
  pose proof (clause_starts _ _ _ _ _ _ _ Cw) as S1.
  assert (W0 : p_clause [lit "WHERE"] p_search lw = Some (ow, [])).
  { rewrite <- (app_nil_r lw) at 1. now apply (clause_reads _ _ _ _ _ _ _ _ Cw). }
  assert (F0 : p_list p_source (lr ++ lw) = Some (rs, lw)) by (apply Rr; eapply starts_stops; [exact S1|reflexivity]).
  set (li := if ig then map XWord [lit "IGNORE"] else []) in *.
  assert (Tx : forall lt, part x_t lt -> tells (lit "DELETE" ++ x_i ++ x_t ++ lit " FROM" ++ (c_sp :: tr) ++ x_w)
    (XWord (lit "DELETE") :: li ++ lt ++ XWord (lit "FROM") :: lr ++ lw)).
  { intros lt Pt. pose proof (tells_parts [x_i; x_t; lit " FROM"; c_sp :: tr; x_w] [li; lt; [XWord (lit "FROM")]; lr; lw]) as Q.
    specialize (Q ltac:(repeat (constructor; [first [assumption|now apply part_some|exact (part_some d _ _ (word_tells E (lit "FROM") eq_refl))]|]); constructor)
      (lit "DELETE") [XWord (lit "DELETE")] (word_tells E (lit "DELETE") eq_refl)).
    cbn [List.concat] in Q. rewrite !app_nil_r in Q. exact Q. }
  destruct tabs as [|t0 tabs].
  - injection Q_t as <-. exists (StDelete ig [] rs ow). split; [|constructor; auto].
    apply (understood_text (lit "DELETE") (x_i ++ [] ++ lit " FROM" ++ (c_sp :: tr) ++ x_w) (XWord (lit "DELETE") :: li ++ [] ++ XWord (lit "FROM") :: lr ++ lw)); [reflexivity|exact (Tx [] (part_none d))|].
    unfold p_statement. replace (seqb (lit "DELETE") (lit "SELECT")) with false by reflexivity.
    replace (seqb (lit "DELETE") (lit "DELETE")) with true by reflexivity. cbv iota. cbn [app].
    subst li. rewrite (flag_reads (lit "IGNORE") [] ig) by (cbn; intuition discriminate).
    cbn [keyword]. rewrite seqb_refl. rewrite F0, W0. reflexivity.
  - cbn [is_nilb negb part_ctx] in Q_t. destruct (tables_str E r [] (t0 :: tabs)) as [tt_|] eqn:Q_t'; [|discriminate].
    cbn [bind] in Q_t. injection Q_t as <-.
    destruct (tables_tell (t0 :: tabs) tt_ ltac:(discriminate) Ht Q_t') as [lt [ts [Tt [St [Rt [x [v [X N]]]]]]]].
    exists (StDelete ig ts rs ow). split; [|constructor; auto].
    apply (understood_text (lit "DELETE") (x_i ++ (c_sp :: tt_) ++ lit " FROM" ++ (c_sp :: tr) ++ x_w) (XWord (lit "DELETE") :: li ++ lt ++ XWord (lit "FROM") :: lr ++ lw)); [reflexivity|exact (Tx lt (part_some d _ _ Tt))|].
    unfold p_statement. replace (seqb (lit "DELETE") (lit "SELECT")) with false by reflexivity.
    replace (seqb (lit "DELETE") (lit "DELETE")) with true by reflexivity. cbv iota.
    subst li. rewrite (flag_reads (lit "IGNORE") [] ig) by (rewrite X; now apply nonword_stops).
    rewrite (keyword_stop (lit "FROM") [XWord (lit "FROM")]); [|now left|rewrite X; now apply nonword_stops].
    rewrite (proj2 Rt) by (eapply starts_stops; [apply (starts_word (lit "FROM") _ [lit "FROM"]); now left|reflexivity]).
    cbn [keyword]. rewrite seqb_refl. rewrite F0, W0. reflexivity.
Qed.

(** ** UPDATE *)
Lemma assign_tells : forall p u, match p with VValue c x => name_ok b c /\ value_ok b x /\ literal_of b x <> None | _ => False end -> r p = Ok u ->
  exists ls y, tells u ls /\ says_assignment b p y /\ reads p_assign dot ls y.
Proof.
  intros p u H T. destruct p as [| | | | | | | | | | | | | | | | | | | | | | | | | | | | | |]; try contradiction.
  match goal with H : name_ok b ?c /\ value_ok b ?x /\ _ |- _ => rename c into cc; rename x into xx end.
  destruct H as [H1 [H2 H3]]. rewrite text_unfold in T. cbn [str_body] in T. unfold value_str in T.
  destruct (sqlref E r cc) as [ct|] eqn:Ec; [|discriminate]. cbn [bind] in T.
  destruct (sqlvalue E r xx) as [xt|] eqn:Ex; [|discriminate]. cbn [bind] in T. injection T as <-.
  destruct (literal_of b xx) as [l|] eqn:L; [|contradiction].
  destruct (name_tells E cc ct H1 Ec) as [p [P [NE Q]]]. destruct (value_tells E xx l xt H2 L Ex) as [V G].
  exists (path_lexemes p ++ XSym 61 :: literal_lexemes b l), (p, l).
  split; [exact (Mid _ _ c_sp [61; 32] [XSym 61] _ _ Q eq_refl (ltac:(split; reflexivity)) V)|]. split; [now constructor|].
  destruct (column_reads p NE) as [N1 R1]. destruct (literal_reads b l G) as [N2 R2].
  split; [destruct (path_lexemes p); [contradiction|discriminate]|]. intros rest S. unfold p_assign. rewrite <- app_assoc.
  rewrite R1 by (cbn; intuition discriminate). cbn [app sym]. change (61 =? 61) with true. cbv iota. now rewrite R2.
Qed.
Lemma update_understood : forall q t, update_fine b q -> r (VUpdate q) = Ok t ->
  exists st, understood d t = Some st /\ says_update b q st.
Proof.
  intros [ig tabs vs wh al] t [NT [Ht [NV [Hv Hw]]]] T.
  rewrite text_unfold in T. cbn [str_body u_tabs u_vals u_where] in *. unfold update_str in T. cbn [u_ignore u_tabs u_vals u_where u_allow] in T.
  destruct (is_nilb wh && negb al); [discriminate|].
  rewrite !nilb_false in T by assumption. cbn [negb part_ctx] in T.
  destruct (tables_str E r [] tabs) as [tt_|] eqn:Q_t; [|discriminate]. cbn [bind] in T.
  destruct (part_ctx ig (Ok (lit "IGNORE"))) as [x_i|] eqn:Q_i; [|discriminate]. cbn [bind] in T.
  destruct (values_str r [] vs) as [tv|] eqn:Q_v; [|discriminate]. cbn [bind] in T.
  destruct (part_ctx (negb (is_nilb wh)) (conds_str r (lit "WHERE") wh)) as [x_w|] eqn:Q_w; [|discriminate]. cbn [bind] in T.
  injection T as <-.
  pose proof (ignore_part ig x_i Q_i) as Pi.
  destruct (conds_clause wh (lit "WHERE") x_w Hw ltac:(split; reflexivity) ltac:(discriminate) Q_w) as [lw [ow [Pw [Cw Sw]]]].
  destruct (tables_tell tabs tt_ NT Ht Q_t) as [lt [ts [Tt [St [Rt [x [v [X N]]]]]]]].
  destruct (parts_tell E _ _ r p_assign dot (says_assignment b) vs [] [] [] tv NV) as [lv [ys [Tv [Sv Rv]]]].
  { cbn; intuition discriminate. } { intros p u I Y. rewrite Forall_forall in Hv. exact (assign_tells p u (Hv p I) Y). } { exact Q_v. } { left; auto. }
  cbn [map app] in Tv. set (li := if ig then map XWord [lit "IGNORE"] else []) in *.
  exists (StUpdate ig ts ys ow). split; [|now constructor].
  apply (understood_text (lit "UPDATE") (x_i ++ (c_sp :: tt_) ++ lit " SET" ++ (c_sp :: tv) ++ x_w) (XWord (lit "UPDATE") :: li ++ lt ++ XWord (lit "SET") :: lv ++ lw)); [reflexivity| |].
  - pose proof (tells_parts [x_i; c_sp :: tt_; lit " SET"; c_sp :: tv; x_w] [li; lt; [XWord (lit "SET")]; lv; lw]) as Q.
    specialize (Q ltac:(repeat (constructor; [first [assumption|now apply part_some|exact (part_some d _ _ (word_tells E (lit "SET") eq_refl))]|]); constructor)
      (lit "UPDATE") [XWord (lit "UPDATE")] (word_tells E (lit "UPDATE") eq_refl)).
    cbn [List.concat] in Q. rewrite !app_nil_r in Q. exact Q.
  - unfold p_statement. replace (seqb (lit "UPDATE") (lit "SELECT")) with false by reflexivity.
    replace (seqb (lit "UPDATE") (lit "DELETE")) with false by reflexivity.
    replace (seqb (lit "UPDATE") (lit "UPDATE")) with true by reflexivity. cbv iota.
    pose proof (clause_starts _ _ _ _ _ _ _ Cw) as S1.
    subst li. rewrite (flag_reads (lit "IGNORE") [] ig) by (rewrite X; now apply nonword_stops).
    rewrite (proj2 Rt) by (eapply starts_stops; [apply (starts_word (lit "SET") _ [lit "SET"]); now left|reflexivity]).
    cbn [keyword]. rewrite seqb_refl. rewrite (proj2 Rv) by (eapply starts_stops; [exact S1|reflexivity]).
    rewrite <- (app_nil_r lw). rewrite (clause_reads _ _ _ _ _ _ _ _ Cw) by exact Logic.I. reflexivity.
Qed.
End Statements.
