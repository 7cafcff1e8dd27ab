(** Proofs for C45: whole queries. *)
From Coq Require Import Lia.
From Verif Require Import Base BaseFacts NumFmt Value Regex Backend Eq Render RenderFacts
  SpecLex SpecRef SpecRead RefFacts LiteralFacts PfLiterals PfHistories SpecWhole PfWhole PfWholeText
  PfWholeClauses PfWholeQuery.
Open Scope N_scope.

Section All.
Context (E : env).
Notation b := (e_be E).
Notation d := (dialect_of b).
Notation twin := (twin d).
Notation twins := (twins d).
Notation agree := (agree d).
Notation cagree := (cagree d).
Notation clause := (clause d).
Notation r := (text E).
Notation fine := (fine E).
Notation all_fine := (all_fine E).
Notation Tcode := (twin_code d (ident_34_96 E)).
Notation Tlead := (twin_lead d (ident_34_96 E)).
Notation Tmid := (twin_mid d (ident_34_96 E)).
Notation Ttrail := (twin_trail d (ident_34_96 E)).
Notation Tparen := (twin_paren d (ident_34_96 E)).
Notation Tclause := (twin_clause d (ident_34_96 E)).
Notation D := (ident_34_96 E).

(** ** Parts without values *)
Lemma twin_word : forall x, negb (is_nilb x) && forallb plainb x && negb (is_space (last x 0)) = true -> twin x x [].
Proof.
  intros [|c x] H; [discriminate|]. apply andb_true_iff in H. destruct H as [H1 H2]. apply andb_true_iff in H1.
  apply negb_true_iff in H2. now apply Tcode.
Qed.
Lemma selopts_twin : forall o, selopts_set o = true -> twin (selopts_str o) (selopts_str o) [].
Proof.
  intros o H. apply twin_word.
  destruct o as [[] [] [] [] [] [] [] []]; (discriminate H || reflexivity).
Qed.
Lemma limit_twin : forall l, limit_set l = true -> twin (limit_str l) (limit_str l) [].
Proof.
  intros [[x|] [y|]] H; try discriminate; unfold limit_str; cbn [l_limit l_offset].
  - change (is_nilb (lit "LIMIT " ++ z_dec x)) with false. cbn iota.
    pose proof (Tmid _ _ _ 32 (lit "OFFSET ") _ _ _ (Tlead (lit "LIMIT ") _ _ _ eq_refl (twin_int E x)) eq_refl (twin_int E y)) as T.
    cbn [app] in T. rewrite <- app_assoc. exact T.
  - apply Tlead; [reflexivity|apply twin_int].
  - cbn [is_nilb app]. apply (Tlead (lit "OFFSET ")); [reflexivity|apply twin_int].
Qed.
Lemma fixed_clause : forall i x, (i = true -> twin x x []) -> cagree (part_ctx i (Ok x)) (part_ctx i (Ok x)) [].
Proof. intros i x T. apply cagree_part; [reflexivity|]. intros H. apply agree_ok. auto. Qed.

(** ** INTO OUTFILE *)
Lemma opt_text : forall kw o, all_fine (opt_vals o) -> option_ok (harmless b AsValue) o ->
  forall t, out_opt E r kw o = Ok t -> exists tb, out_opt E r kw (on_option (blank AsValue) o) = Ok tb /\
  ((t = [] /\ tb = [] /\ from_option (written b AsValue) o = [] /\ o = None)
   \/ exists y yb, t = kw ++ y /\ tb = kw ++ yb /\ twin y yb (from_option (written b AsValue) o)).
Proof.
  intros kw [x|] F H t X; cbn [out_opt on_option] in *.
  - destruct (sqlvalue E r x) as [y|e] eqn:Ex; [|discriminate]. cbn [bind] in X. injection X as <-.
    destruct (fine_value E x (F x (or_introl eq_refl)) H y Ex) as [yb [Eb T]]. rewrite Eb. cbn [bind].
    eexists. split; [reflexivity|]. right. exists y, yb. auto.
  - injection X as <-. exists []. split; [reflexivity|]. left. auto.
Qed.
Lemma out_agree : forall o, out_set o = true -> all_fine (out_vals o) -> out_ok (harmless b AsValue) o ->
  agree (out_str E r o) (out_str E r (on_outfile (blank AsValue) o)) (out_written (written b AsValue) o).
Proof.
  intros [f1 f2 f3 f4] S F [H1 [H2 [H3 H4]]]. destruct f1 as [f1|]; [|discriminate]. clear S.
  assert (F1 : all_fine (opt_vals (Some f1)) /\ all_fine (opt_vals f2) /\ all_fine (opt_vals f3) /\ all_fine (opt_vals f4)).
  { unfold out_vals in F. cbn [o_file o_fields o_lines o_encl] in F.
    repeat split; intros x Hx; apply F; rewrite !in_app_iff; auto. }
  destruct F1 as [F1 [F2 [F3 F4]]].
  intros t X. unfold out_str in *. cbn [o_file o_fields o_lines o_encl on_outfile] in *.
  destruct (out_opt E r (lit "INTO OUTFILE ") (Some f1)) as [t1|] eqn:X1; [|discriminate].
  destruct (out_opt E r (lit " FIELDS TERMINATED BY ") f2) as [t2|] eqn:X2; [|discriminate].
  destruct (out_opt E r (lit " LINES TERMINATED BY ") f3) as [t3|] eqn:X3; [|discriminate].
  destruct (out_opt E r (lit " OPTIONALLY ENCLOSED BY ") f4) as [t4|] eqn:X4; [|discriminate].
  cbn [bind] in X. injection X as <-.
  destruct (opt_text _ _ F1 H1 _ X1) as [b1 [-> Y1]].
  destruct (opt_text _ _ F2 H2 _ X2) as [b2 [-> Y2]].
  destruct (opt_text _ _ F3 H3 _ X3) as [b3 [-> Y3]].
  destruct (opt_text _ _ F4 H4 _ X4) as [b4 [-> Y4]].
  cbn [bind]. eexists. split; [reflexivity|]. cbn [out_written].
  destruct Y1 as [[_ [_ [_ Y1]]]|[y1 [yb1 [-> [-> T1]]]]]; [discriminate|].
  assert (C : forall kw t tb o, kw = c_sp :: tl kw -> leadb (tl kw) = true ->
    (t = [] /\ tb = [] /\ from_option (written b AsValue) o = [] /\ o = None)
     \/ (exists y yb, t = kw ++ y /\ tb = kw ++ yb /\ twin y yb (from_option (written b AsValue) o)) ->
    clause t tb (from_option (written b AsValue) o)).
  { intros kw t tb o K L [[-> [-> [-> _]]]|[y [yb [-> [-> T]]]]]; [apply clause_none|].
    rewrite K. cbn [app]. apply clause_some. now apply Tlead. }
  apply C in Y2; [|reflexivity|reflexivity]. apply C in Y3; [|reflexivity|reflexivity]. apply C in Y4; [|reflexivity|reflexivity].
  pose proof (Tclause _ _ _ _ _ _ (Tclause _ _ _ _ _ _ (Tclause _ _ _ _ _ _ (Tlead (lit "INTO OUTFILE ") _ _ _ eq_refl T1) Y2) Y3) Y4) as Q.
  rewrite <- !app_assoc in Q. rewrite <- !app_assoc. exact Q.
Qed.

(** ** Rows of INSERT *)
Lemma seqb_sym : forall x y, seqb x y = seqb y x.
Proof.
  intros x y. destruct (seqb x y) eqn:H.
  - apply seqb_eq in H. subst. symmetry. apply seqb_refl.
  - symmetry. apply seqb_neq. apply seqb_neq in H. auto.
Qed.
Lemma sorted_once_ok : forall l, sorted_once l = ssort (suniq l).
Proof.
  assert (I : forall x l, in_order x l = sinsert x l).
  { intros x l. induction l as [|y l IH]; [reflexivity|]. cbn. now rewrite IH. }
  induction l as [|x l IH]; [reflexivity|]. cbn [sorted_once suniq]. destruct (existsb (seqb x) l); [exact IH|].
  cbn [ssort]. now rewrite I, IH.
Qed.
Definition cell (p : val) : str * list str :=
  match p with VValue (VStr c) x => (c, written b AsValue x) | _ => ([], []) end.
Definition cell_ok (p : val) : Prop :=
  match p with VValue (VStr c) x => good_name (quote_of b) c /\ harmless b AsValue x | _ => False end.
Lemma columns_same : forall rows, All (All cell_ok) rows ->
  all_columns (map (map (blank AsSql)) rows) = all_columns rows /\
  all_columns rows = Ok (sorted_once (flat_map (map fst) (map (map cell) rows))).
Proof.
  intros rows H. unfold all_columns. rewrite sorted_once_ok.
  assert (G : forall l, All cell_ok l -> mapM part_column (map (blank AsSql) l) = mapM part_column l /\
     mapM part_column l = Ok (map fst (map cell l))).
  { induction l as [|p l IH]; intros Hl; [split; reflexivity|]. destruct Hl as [Hp Hl]. destruct (IH Hl) as [I1 I2].
    destruct p as [| | | | | | | | | | | | | | | | |c x| | | | | | | | | | | | |]; try contradiction. destruct c; try contradiction.
    cbn [map mapM blank part_column bind cell fst]. rewrite I1, I2. split; reflexivity. }
  assert (C : All cell_ok (List.concat rows)).
  { rewrite All_In in *. intros p Hp. apply in_concat in Hp. destruct Hp as [row [H1 H2]]. specialize (H row H1). rewrite All_In in H. auto. }
  destruct (G _ C) as [G1 G2]. rewrite <- concat_map in *. rewrite G1, G2. split; [reflexivity|]. cbn [bind].
  replace (flat_map (map fst) (map (map cell) rows)) with (map fst (map cell (List.concat rows))); [reflexivity|].
  clear. induction rows as [|row rows IH]; [reflexivity|]. cbn [map List.concat flat_map]. now rewrite !map_app, IH.
Qed.
Lemma row_value_spec : forall row c acc, All cell_ok row ->
  fold_left (fun acc p => match p with VValue (VStr c') v => if seqb c c' then v else acc | _ => acc end) row acc
  = acc /\ last_for c (map cell row) = None \/
  exists p x, In p row /\ p = VValue (VStr c) x /\
    fold_left (fun acc p => match p with VValue (VStr c') v => if seqb c c' then v else acc | _ => acc end) row acc = x /\
    last_for c (map cell row) = Some (written b AsValue x).
Proof.
  induction row as [|p row IH]; intros c acc H; [left; split; reflexivity|]. destruct H as [Hp Hr].
  destruct p as [| | | | | | | | | | | | | | | | |pc x| | | | | | | | | | | | |]; try contradiction. destruct pc; try contradiction.
  cbn [fold_left map cell last_for]. destruct (IH c (if seqb c s then x else acc) Hr) as [[H1 H2]|[p [y [H1 [H2 [H3 H4]]]]]].
  - rewrite H1, H2. destruct (seqb c s) eqn:X; [|left; split; reflexivity].
    right. apply seqb_eq in X. subst s. exists (VValue (VStr c) x), x. split; [now left|]. auto.
  - right. exists p, y. split; [now right|]. rewrite H4. auto.
Qed.
Lemma row_value_blank : forall row c acc, All cell_ok row ->
  fold_left (fun acc p => match p with VValue (VStr c') v => if seqb c c' then v else acc | _ => acc end)
    (map (blank AsSql) row) (blank AsValue acc)
  = blank AsValue (fold_left (fun acc p => match p with VValue (VStr c') v => if seqb c c' then v else acc | _ => acc end) row acc).
Proof.
  induction row as [|p row IH]; intros c acc H; [reflexivity|]. destruct H as [Hp Hr].
  destruct p as [| | | | | | | | | | | | | | | | |pc x| | | | | | | | | | | | |]; try contradiction. destruct pc; try contradiction.
  cbn [fold_left map blank]. rewrite <- IH by exact Hr. now destruct (seqb c s).
Qed.
Lemma join_twin : forall c u ts tbs ls, leadb (c :: u) = true -> twins ts tbs ls ->
  twin (paren (sjoin (c :: u) ts)) (paren (sjoin (c :: u) tbs)) (List.concat ls).
Proof.
  intros c u ts tbs ls L T. destruct (is_nilb ts) eqn:N.
  - destruct T; [|discriminate]. now apply Tcode.
  - apply Tparen. apply twin_join; auto using ident_34_96.
Qed.
Lemma row_agree : forall cols row, (forall p x c, In p row -> p = VValue c x -> fine x) -> All cell_ok row ->
  agree (row_str E r cols row) (row_str E r cols (map (blank AsSql) row))
        (flat_map (fun c => from_option (fun x => x) (last_for c (map cell row))) cols).
Proof.
  intros cols row F H. unfold row_str. intros t X.
  destruct (mapM (fun c => sqlvalue E r (row_value row c)) cols) as [ts|e] eqn:M; [|discriminate].
  cbn [bind] in X. injection X as <-.
  destruct (mapM_twins d _ (fun c => sqlvalue E r (row_value row c)) _ (fun c => sqlvalue E r (row_value (map (blank AsSql) row) c))
    (fun c => c) (fun c => from_option (fun x => x) (last_for c (map cell row))) cols ts) as [tbs [Mb T]].
  - intros c _. unfold row_value. change VNone with (blank AsValue VNone) at 2. rewrite row_value_blank by exact H.
    destruct (row_value_spec row c VNone H) as [[-> ->]|[p [x [H1 [H2 [-> ->]]]]]].
    + apply agree_ok. now apply Tcode.
    + cbn [from_option]. apply fine_value; [eapply F; eauto|]. rewrite All_In in H. specialize (H p H1). subst p. apply H.
  - exact M.
  - rewrite map_id in Mb. rewrite Mb. cbn [bind]. eexists. split; [reflexivity|]. rewrite flat_map_concat_map. now apply join_twin.
Qed.
Lemma sorted_once_In : forall x l, In x (sorted_once l) -> In x l.
Proof.
  assert (I : forall x y l, In x (in_order y l) -> x = y \/ In x l).
  { intros x y l. induction l as [|z l IH]; cbn [in_order]; [simpl; intuition|].
    destruct (sltb y z); simpl; [intuition|]. intros [H|H]; [auto|]. apply IH in H. intuition. }
  intros x l; induction l as [|y l IH]; cbn [sorted_once]; [auto|]. destruct (existsb (seqb y) l); [simpl; auto|].
  intros H. apply I in H. simpl. intuition.
Qed.
Lemma rows_agree : forall rows, rows <> [] -> (forall row p x c, In row rows -> In p row -> p = VValue c x -> fine x) ->
  All (All cell_ok) rows ->
  agree (rows_str E r rows) (rows_str E r (map (map (blank AsSql)) rows)) (rows_written (map (map cell) rows)).
Proof.
  intros rows NE F H. unfold rows_str. destruct (columns_same rows H) as [C1 C2]. rewrite C1, C2. cbn [bind].
  set (cols := sorted_once (flat_map (map fst) (map (map cell) rows))).
  assert (G : forall c, In c cols -> good_name (quote_of b) c).
  { intros c Hc. apply sorted_once_In in Hc. apply in_flat_map in Hc. destruct Hc as [ps [H1 H2]].
    apply in_map_iff in H1. destruct H1 as [row [<- H1]]. apply in_map_iff in H2. destruct H2 as [q [<- H2]].
    apply in_map_iff in H2. destruct H2 as [p [<- H2]]. rewrite All_In in H. specialize (H row H1). rewrite All_In in H.
    specialize (H p H2). destruct p as [| | | | | | | | | | | | | | | | |pc x| | | | | | | | | | | | |]; try contradiction. destruct pc; try contradiction.
    apply H. }
  assert (Tc : twin (paren (sjoin (lit ", ") (map (reference b) cols))) (paren (sjoin (lit ", ") (map (reference b) cols))) []).
  { replace (@nil str) with (List.concat (map (fun _ : str => @nil str) cols)) by (clear; induction cols; auto).
    apply (join_twin 44 [32]); [reflexivity|]. clear C1 C2. induction cols as [|c cols IH]; [constructor|].
    constructor; [apply twin_name; apply G; now left|]. apply IH. intros; apply G; now right. }
  intros t X. destruct (mapM (row_str E r cols) rows) as [ts|e] eqn:M; [|discriminate]. cbn [bind] in X. injection X as <-.
  destruct (mapM_twins d _ (row_str E r cols) _ (row_str E r cols) (map (blank AsSql))
    (fun row => flat_map (fun c => from_option (fun x => x) (last_for c (map cell row))) cols) rows ts) as [tbs [Mb T]].
  - intros row Hr. apply row_agree; [intros; eapply F; eauto|]. rewrite All_In in H. auto.
  - exact M.
  - rewrite Mb. cbn [bind]. eexists. split; [reflexivity|].
    assert (L : rows_written (map (map cell) rows) = [] ++ List.concat (map (fun row => flat_map (fun c => from_option (fun x => x) (last_for c (map cell row))) cols) rows)).
    { unfold rows_written. fold cols. rewrite flat_map_concat_map, map_map. reflexivity. }
    rewrite L.
    assert (NT : is_nilb ts = false) by (destruct rows; [contradiction|]; now inversion T).
    exact (Tmid _ _ _ 32 (lit "VALUES ") _ _ _ Tc eq_refl (twin_join d D 44 [32] eq_refl _ _ _ T NT)).
Qed.

(** ** Statements *)
Notation TABS := (flat_map (table_written (written b AsName) (written b AsSql))).
Notation tabs_ok := (All (table_ok b (harmless b AsName) (harmless b AsSql))).
Lemma tables_clause : forall kw ts, kw = [] \/ twin kw kw [] -> all_fine (flat_map table_vals ts) -> tabs_ok ts ->
  cagree (part_ctx (negb (is_nilb ts)) (tables_str E r kw ts))
         (part_ctx (negb (is_nilb (map (on_table (blank AsName) (blank AsSql)) ts)))
            (tables_str E r kw (map (on_table (blank AsName) (blank AsSql)) ts))) (TABS ts).
Proof.
  intros kw ts K F H. rewrite is_nilb_map. apply cagree_part; [destruct ts; [reflexivity|discriminate]|].
  intros N. apply tables_agree; auto. now apply nilb_not.
Qed.
Lemma conds_clause : forall kw ps, kw = [] \/ twin kw kw [] -> all_fine ps -> All (harmless b AsSql) ps ->
  cagree (part_ctx (negb (is_nilb ps)) (conds_str r kw ps))
         (part_ctx (negb (is_nilb (map (blank AsSql) ps))) (conds_str r kw (map (blank AsSql) ps)))
         (flat_map (written b AsSql) ps).
Proof.
  intros kw ps K F H. rewrite is_nilb_map. apply cagree_part; [destruct ps; [reflexivity|discriminate]|].
  intros N. apply conds_agree; auto. now apply nilb_not.
Qed.
Lemma values_clause : forall kw ps, kw = [] \/ twin kw kw [] -> all_fine ps -> All (harmless b AsSql) ps ->
  cagree (part_ctx (negb (is_nilb ps)) (values_str r kw ps))
         (part_ctx (negb (is_nilb (map (blank AsSql) ps))) (values_str r kw (map (blank AsSql) ps)))
         (flat_map (written b AsSql) ps).
Proof.
  intros kw ps K F H. rewrite is_nilb_map. apply cagree_part; [destruct ps; [reflexivity|discriminate]|].
  intros N. apply values_agree; auto. now apply nilb_not.
Qed.
Lemma orders_clause : forall kw (os : list (val * sortd)), kw = [] \/ twin kw kw [] -> all_fine (map fst os) ->
  All (fun p => match p with (x, _) => harmless b AsName x end) os ->
  cagree (part_ctx (negb (is_nilb os)) (orders_str E r kw os))
         (part_ctx (negb (is_nilb (map (on_fst (blank AsName)) os))) (orders_str E r kw (map (on_fst (blank AsName)) os)))
         (flat_map (fun p => match p with (x, _) => written b AsName x end) os).
Proof.
  intros kw os K F H. rewrite is_nilb_map. apply cagree_part; [destruct os; [reflexivity|discriminate]|].
  intros N. apply orders_agree; auto. now apply nilb_not.
Qed.
Ltac word := first [left; reflexivity | right; apply twin_word; reflexivity].

Lemma select_agree : forall q, all_fine (sel_vals q) -> harmless b AsSql (VSelect q) ->
  agree (r (VSelect q)) (r (blank AsSql (VSelect q))) (written b AsSql (VSelect q)).
Proof.
  intros [op c t w g h o l out fu] F H. rewrite !text_unfold. cbn [blank str_body written].
  cbn [harmless] in H. destruct H as [Hc [Ht [Hw [Hg [Hh [Ho Hout]]]]]].
  unfold sel_vals in F. cbn [s_cols s_tabs s_where s_group s_having s_order s_out] in F.
  assert (FF : all_fine (flat_map pair_vals c) /\ all_fine (flat_map table_vals t) /\ all_fine w /\ all_fine (map fst g)
    /\ all_fine h /\ all_fine (map fst o) /\ all_fine (out_vals out)).
  { repeat split; intros x Hx; apply F; rewrite !in_app_iff; tauto. }
  destruct FF as [Fc [Ft [Fw [Fg [Fh [Fo Fout]]]]]].
  unfold select_str. cbn [s_opts s_cols s_tabs s_where s_group s_having s_order s_limit s_out s_forupd].
  eapply bind_clause; [apply cagree_part; [discriminate|intros _; apply columns_agree; [exact Fc|exact Hc]]|]. intros xc xcb Cc.
  eapply bind_clause; [apply orders_clause; [word|exact Fg|exact Hg]|]. intros xg xgb Cg.
  eapply bind_clause; [apply conds_clause; [word|exact Fh|exact Hh]|]. intros xh xhb Ch.
  assert (Os : out_set (on_outfile (blank AsValue) out) = out_set out) by (destruct out as [[] ? ? ?]; reflexivity).
  rewrite Os.
  eapply bind_clause; [apply cagree_part; [|intros S; apply out_agree; [exact S|exact Fout|exact Hout]]|].
  { destruct out as [[] ? ? ?]; [discriminate|reflexivity]. }
  intros xu xub Cu.
  eapply bind_clause; [apply fixed_clause; intros S; now apply limit_twin|]. intros xl xlb Cl.
  eapply bind_clause; [apply orders_clause; [word|exact Fo|exact Ho]|]. intros xo xob Co.
  eapply bind_clause; [apply fixed_clause; intros _; apply twin_word; reflexivity|]. intros xf xfb Cf.
  eapply bind_clause; [apply fixed_clause; intros S; now apply selopts_twin|]. intros xp xpb Cp.
  eapply bind_clause; [apply tables_clause; [word|exact Ft|exact Ht]|]. intros xt xtb Ct.
  eapply bind_clause; [apply conds_clause; [word|exact Fw|exact Hw]|]. intros xw xwb Cw.
  apply agree_ok. apply (twin_strip d 83); [reflexivity|].
  assert (S0 : twin (lit "SELECT") (lit "SELECT") []) by (apply twin_word; reflexivity).
  pose proof (Tclause _ _ _ _ _ _ (Tclause _ _ _ _ _ _ (Tclause _ _ _ _ _ _ (Tclause _ _ _ _ _ _ (Tclause _ _ _ _ _ _
    (Tclause _ _ _ _ _ _ (Tclause _ _ _ _ _ _ (Tclause _ _ _ _ _ _ (Tclause _ _ _ _ _ _ (Tclause _ _ _ _ _ _ S0 Cp) Cc) Ct) Cw) Cg) Ch) Co) Cl) Cu) Cf) as Q.
  rewrite !app_nil_r in Q. cbn [app] in Q. rewrite <- !app_assoc in Q. exact Q.
Qed.

Lemma delete_agree : forall q, all_fine (del_vals q) -> harmless b AsSql (VDelete q) ->
  agree (r (VDelete q)) (r (blank AsSql (VDelete q))) (written b AsSql (VDelete q)).
Proof.
  intros [ig t rf w al] F H. rewrite !text_unfold. cbn [blank str_body written].
  cbn [harmless] in H. destruct H as [Ht [Hr Hw]]. unfold del_vals in F. cbn [d_tabs d_refs d_where] in F.
  assert (FF : all_fine (flat_map table_vals t) /\ all_fine (flat_map table_vals rf) /\ all_fine w).
  { repeat split; intros x Hx; apply F; rewrite !in_app_iff; tauto. }
  destruct FF as [Ft [Fr Fw]]. unfold delete_str. cbn [d_ignore d_tabs d_refs d_where d_allow].
  rewrite is_nilb_map. destruct (is_nilb w && negb al); [apply agree_err|]. rewrite <- (is_nilb_map _ _ (blank AsSql) w).
  eapply bind_clause; [apply fixed_clause; intros _; apply twin_word; reflexivity|]. intros xi xib Ci.
  eapply bind_clause; [apply tables_clause; [word|exact Fr|exact Hr]|]. intros xr xrb Cr.
  eapply bind_clause; [apply tables_clause; [word|exact Ft|exact Ht]|]. intros xt xtb Ct.
  rewrite (is_nilb_map _ _ (blank AsSql) w) at 1.
  eapply bind_clause; [apply conds_clause; [word|exact Fw|exact Hw]|]. intros xw xwb Cw.
  apply agree_ok. apply (twin_strip d 68); [reflexivity|].
  assert (S0 : twin (lit "DELETE") (lit "DELETE") []) by (apply twin_word; reflexivity).
  assert (C0 : clause (lit " FROM") (lit " FROM") []) by (apply (clause_some d (lit "FROM")); apply twin_word; reflexivity).
  pose proof (Tclause _ _ _ _ _ _ (Tclause _ _ _ _ _ _ (Tclause _ _ _ _ _ _ (Tclause _ _ _ _ _ _ (Tclause _ _ _ _ _ _ S0 Ci) Ct) C0) Cr) Cw) as Q.
  rewrite !app_nil_r in Q. cbn [app] in Q. rewrite <- !app_assoc in Q. exact Q.
Qed.
Lemma update_agree : forall q, all_fine (upd_vals q) -> harmless b AsSql (VUpdate q) ->
  agree (r (VUpdate q)) (r (blank AsSql (VUpdate q))) (written b AsSql (VUpdate q)).
Proof.
  intros [ig t vs w al] F H. rewrite !text_unfold. cbn [blank str_body written].
  cbn [harmless] in H. destruct H as [Ht [Hv Hw]]. unfold upd_vals in F. cbn [u_tabs u_vals u_where] in F.
  assert (FF : all_fine (flat_map table_vals t) /\ all_fine vs /\ all_fine w).
  { repeat split; intros x Hx; apply F; rewrite !in_app_iff; tauto. }
  destruct FF as [Ft [Fv Fw]]. unfold update_str. cbn [u_ignore u_tabs u_vals u_where u_allow].
  rewrite is_nilb_map. destruct (is_nilb w && negb al); [apply agree_err|]. rewrite <- (is_nilb_map _ _ (blank AsSql) w).
  eapply bind_clause; [apply tables_clause; [word|exact Ft|exact Ht]|]. intros xt xtb Ct.
  eapply bind_clause; [apply fixed_clause; intros _; apply twin_word; reflexivity|]. intros xi xib Ci.
  eapply bind_clause; [apply values_clause; [word|exact Fv|exact Hv]|]. intros xv xvb Cv.
  rewrite (is_nilb_map _ _ (blank AsSql) w) at 1.
  eapply bind_clause; [apply conds_clause; [word|exact Fw|exact Hw]|]. intros xw xwb Cw.
  apply agree_ok. apply (twin_strip d 85); [reflexivity|].
  assert (S0 : twin (lit "UPDATE") (lit "UPDATE") []) by (apply twin_word; reflexivity).
  assert (C0 : clause (lit " SET") (lit " SET") []) by (apply (clause_some d (lit "SET")); apply twin_word; reflexivity).
  pose proof (Tclause _ _ _ _ _ _ (Tclause _ _ _ _ _ _ (Tclause _ _ _ _ _ _ (Tclause _ _ _ _ _ _ (Tclause _ _ _ _ _ _ S0 Ci) Ct) C0) Cv) Cw) as Q.
  rewrite !app_nil_r in Q. cbn [app] in Q. rewrite <- !app_assoc in Q. exact Q.
Qed.
Lemma conflict_twin : forall cf, match cf with Some c => good_name (quote_of b) c | None => True end ->
  twin (conflict_keyword E cf) (conflict_keyword E cf) [].
Proof.
  intros [c|] H; unfold conflict_keyword.
  - apply Tlead; [reflexivity|]. apply (Ttrail (reference b c) _ [] 41 (lit " DO UPDATE")); auto. now apply twin_name.
  - apply twin_word. reflexivity.
Qed.
Lemma insert_agree : forall q, all_fine (ins_vals q) ->
  (forall row p x c, In row (i_rows q) -> In p row -> p = VValue c x -> fine x) -> harmless b AsSql (VInsert q) ->
  agree (r (VInsert q)) (r (blank AsSql (VInsert q))) (written b AsSql (VInsert q)).
Proof.
  intros [rp ig t rows dup cf upd] F F2 H. rewrite !text_unfold. cbn [blank str_body written].
  cbn [harmless] in H. destruct H as [Ht [Hr [Hd [Hu Hc]]]]. unfold ins_vals in F. cbn [i_tabs i_rows i_dup i_upd] in F, F2.
  assert (FF : all_fine (flat_map table_vals t) /\ all_fine dup /\ all_fine upd).
  { repeat split; intros x Hx; apply F; rewrite !in_app_iff; tauto. }
  destruct FF as [Ft [Fd Fu]]. unfold insert_str. cbn [i_replace i_ignore i_tabs i_rows i_dup i_conflict i_upd].
  eapply bind_clause; [apply fixed_clause; intros _; apply twin_word; reflexivity|]. intros xi xib Ci.
  set (kw := if rp then lit "REPLACE" else lit "INSERT"). cbn [part_ctx bind].
  eapply bind_clause; [apply values_clause; [right; now apply conflict_twin|exact Fu|exact Hu]|]. intros xu xub Cu.
  eapply bind_clause; [apply values_clause; [word|exact Fd|exact Hd]|]. intros xd xdb Cd.
  eapply bind_clause; [apply tables_clause; [word|exact Ft|exact Ht]|]. intros xt xtb Ct.
  rewrite is_nilb_map.
  eapply bind_clause; [apply cagree_part; [|intros S; apply rows_agree; [now apply nilb_not|exact F2|exact Hr]]|].
  { destruct rows; [reflexivity|discriminate]. }
  intros xr xrb Cr.
  apply agree_ok. change (c_sp :: kw) with ([c_sp] ++ kw).
  assert (LS : forall z, strip (([c_sp] ++ kw) ++ z) = strip (kw ++ z)) by (intros z; reflexivity).
  rewrite !LS.
  assert (S0 : twin kw kw []) by (apply twin_word; unfold kw; destruct rp; reflexivity).
  assert (C0 : clause (lit " INTO") (lit " INTO") []) by (apply (clause_some d (lit "INTO")); apply twin_word; reflexivity).
  pose proof (Tclause _ _ _ _ _ _ (Tclause _ _ _ _ _ _ (Tclause _ _ _ _ _ _ (Tclause _ _ _ _ _ _ (Tclause _ _ _ _ _ _ (Tclause _ _ _ _ _ _ S0 Ci) C0) Ct) Cr) Cd) Cu) as Q.
  rewrite !app_nil_r in Q. cbn [app] in Q. rewrite <- !app_assoc in Q.
  unfold kw in *. destruct rp; [apply (twin_strip d 82); [reflexivity|exact Q]|apply (twin_strip d 73); [reflexivity|exact Q]].
Qed.

(** ** Everything *)
Lemma bracket_twin : forall v x xb l, twin x xb l -> twin (bracket v x) (bracket (blank AsSql v) xb) l.
Proof.
  intros v x xb l T. unfold bracket.
  assert (N : needs_brackets (blank AsSql v) = needs_brackets v).
  { destruct v; try reflexivity; try (now destruct q). cbn [blank needs_brackets]. now rewrite map_length. }
  rewrite N. destruct (needs_brackets v); [now apply Tparen|exact T].
Qed.
Lemma everything_fine : forall v, fine v.
Proof.
  assert (A : forall n v, (depth v < n)%nat -> fine v).
  { induction n as [|n IH]; intros v L; [lia|].
    assert (F : forall x, In x (children v) -> fine x).
    { intros x Hx. apply IH. pose proof (children_depth v x Hx). lia. }
    assert (F2 : forall x y, In x (children v) -> In y (children x) -> fine y).
    { intros x y Hx Hy. apply IH. pose proof (children_depth v x Hx). pose proof (children_depth x y Hy). lia. }
    destruct (is_sql v) eqn:S; [|now apply value_fine].
    apply object_fine; [exact S|]. clear L IH. intros H. destruct v; try discriminate S; clear S; try (cbn [harmless] in H; contradiction).
    - rewrite !text_unfold. apply fine_value; [apply F; now left|exact H].
    - rewrite !text_unfold. apply fine_name; [apply F; now left|exact H].
    - destruct H as [H1 H2]. apply cond_agree; auto; try (apply F; simpl; auto).
      intros y Hy. apply (F2 v2); simpl; auto.
    - destruct H as [H1 H2]. rewrite !text_unfold. cbn [blank str_body written]. unfold value_str.
      eapply agree_map2; [apply fine_name; [apply F; now left|exact H1]|apply fine_value; [apply F; simpl; auto|exact H2]|].
      intros t tb u ub T U. exact (Tmid _ _ _ 32 (lit "= ") _ _ _ T eq_refl U).
    - destruct H as [H1 H2]. rewrite !text_unfold. cbn [blank str_body written]. apply conds_agree; auto.
    - destruct H as [H1 H2]. rewrite !text_unfold. cbn [blank str_body written].
      eapply bind_agree; [apply fine_sql; [apply F; now left|exact H1]|]. intros t tb T.
      eapply bind_agree; [apply fine_sql; [apply F; simpl; auto|exact H2]|]. intros u ub U.
      apply agree_ok. apply Tparen.
      pose proof (Tmid _ _ _ 32 (bop_str o ++ lit " ") _ _ _ (bracket_twin v1 _ _ _ T) (ltac:(destruct o; reflexivity)) (bracket_twin v2 _ _ _ U)) as Q.
      cbn [app] in Q. rewrite <- !app_assoc in Q. exact Q.
    - destruct H as [H1 H2]. rewrite !text_unfold. cbn [blank str_body written].
      eapply agree_map; [apply conds_agree; [now left|exact H1|exact F|exact H2]|]. intros t tb T.
      apply (Tlead (lit "NOT")); [reflexivity|]. now apply Tparen.
    - rewrite !text_unfold. cbn [blank str_body written].
      eapply agree_map; [apply fine_sql; [apply F; now left|exact H]|]. intros t tb T.
      apply (Tlead (lit "EXISTS")); [reflexivity|]. now apply Tparen.
    - rewrite !text_unfold. cbn [blank str_body written].
      eapply agree_map; [apply agg_agree; [apply F; now left| |exact H]|].
      + intros y Hy. apply (F2 v); simpl; auto.
      + intros t tb T. assert (X : twin ((if distinct then lit "DISTINCT " else []) ++ t) ((if distinct then lit "DISTINCT " else []) ++ tb) (written b AsName v)).
        { destruct distinct; [now apply Tlead|exact T]. }
        apply Tparen in X. unfold paren in *. rewrite (app_assoc (agg_name k) [c_lp]).
        rewrite (app_assoc (agg_name k) [c_lp] (((if distinct then lit "DISTINCT " else []) ++ tb) ++ [c_rp])).
        destruct T as [T1 [T2 T3]].
        assert (Y : twin ((if distinct then lit "DISTINCT " else []) ++ t) ((if distinct then lit "DISTINCT " else []) ++ tb) (written b AsName v)).
        { destruct distinct; [apply Tlead; [reflexivity|]|]; split; auto. }
        apply Tlead; [destruct k; reflexivity|]. now apply Ttrail.
    - rewrite !text_unfold. cbn [blank str_body written].
      eapply agree_map; [apply columns_agree; [exact F|exact H]|]. intros t tb T.
      apply (Tlead (lit "CONCAT")); [reflexivity|]. now apply Tparen.
    - destruct H as [H1 [H2 H3]]. rewrite !text_unfold. cbn [blank str_body written]. cbn [children] in F.
      eapply bind_agree; [apply columns_agree; [|exact H1]|].
      { intros x Hx. apply F. rewrite in_app_iff. auto. }
      intros x xb T.
      eapply bind_clause; [apply orders_clause; [word| |exact H2]|].
      { intros y Hy. apply F. rewrite !in_app_iff. auto. }
      intros o ob C.
      set (sb := match v with VStr [] => v | _ => blank AsValue v end).
      assert (Sep : cagree (if truthy v then do x <- sqlvalue E r v; Ok (lit " SEPARATOR " ++ x) else Ok [])
        (if truthy sb then do x <- sqlvalue E r sb; Ok (lit " SEPARATOR " ++ x) else Ok [])
        (match v with VStr [] | VBytes [] => [] | _ => written b AsValue v end)).
      { destruct (truthy v) eqn:Ts.
        - assert (Sb : sb = blank AsValue v) by (unfold sb; destruct v as [| | | | |[|]| | | | | | | | | | | | | | | | | | | | | | | | |]; try reflexivity; discriminate).
          assert (Hs : harmless b AsValue v) by (destruct H3 as [->|[->|H3]]; [discriminate|discriminate|exact H3]).
          assert (Tb : truthy sb = true).
          { rewrite Sb. destruct v; try reflexivity; try exact Ts; try (now destruct q). destruct k; cbn [blank truthy] in *; rewrite ?is_nilb_map; exact Ts. }
          assert (W : (match v with VStr [] | VBytes [] => [] | _ => written b AsValue v end) = written b AsValue v)
            by (destruct v as [| | | | |[|]|[|]| | | | | | | | | | | | | | | | | | | | | | | |]; try reflexivity; discriminate).
          rewrite Tb, W, Sb. intros z Z. destruct (sqlvalue E r v) as [y|e] eqn:Ey; [|discriminate]. cbn [bind] in Z. injection Z as <-.
          destruct (fine_value E v (F v (ltac:(rewrite !in_app_iff; simpl; auto))) Hs y Ey) as [yb [Eb Tw]]. rewrite Eb. cbn [bind].
          eexists. split; [reflexivity|]. exact (clause_some d (lit "SEPARATOR " ++ y) (lit "SEPARATOR " ++ yb) _ (Tlead (lit "SEPARATOR ") _ _ _ eq_refl Tw)).
        - assert (Tb : truthy sb = false).
          { unfold sb. destruct H3 as [->|[->|H3]]; try reflexivity. destruct v as [| | | | |[|]| | | |kd sl| | | | | | | | | | | | | | | | | | | | |]; try reflexivity; try exact Ts; try discriminate.
            destruct kd; cbn [blank truthy] in *; rewrite ?is_nilb_map; exact Ts. }
          rewrite Tb. intros z Z. injection Z as <-. exists []. split; [reflexivity|].
          assert (W : (match v with VStr [] | VBytes [] => [] | _ => written b AsValue v end) = []).
          { destruct H3 as [->|[->|H3]]; try reflexivity. destruct v as [| | | | |[|]|[|]| | |kd [|]| | | | | | | | | | | | | | | | | | | | |]; try reflexivity; try discriminate;
            cbn [harmless] in H3; try contradiction; try (destruct kd; discriminate).
            }
          rewrite W. apply clause_none. }
      eapply bind_clause; [exact Sep|]. intros p pb Cp.
      apply agree_ok. apply (Tlead (lit "GROUP_CONCAT")); [reflexivity|]. apply Tparen.
      pose proof (Tclause _ _ _ _ _ _ (Tclause _ _ _ _ _ _ T C) Cp) as Q. rewrite <- !app_assoc in Q. exact Q.
    - destruct H as [H1 H2]. rewrite !text_unfold. cbn [blank str_body written].
      eapply agree_map; [apply expr_agree; [apply F; now left| |exact H2]|].
      + intros y Hy. apply (F2 v); simpl; auto.
      + intros t tb T. apply (Tlead (lit "CONVERT")); [reflexivity|]. apply Tparen.
        assert (Ty : twin (match ty with Some t => t | None => lit "None" end) (match ty with Some t => t | None => lit "None" end) []).
        { apply twin_word. destruct ty as [s|]; [|reflexivity]. destruct H1 as [NE Hs].
          rewrite Forall_forall in Hs.
          assert (X : forallb plainb s = true).
          { apply forallb_forall. intros c Hc. destruct (Hs c Hc) as [Q _]. unfold plainb. apply negb_true_iff.
            rewrite !orb_false_iff. repeat split; apply N.eqb_neq; intros ->; apply Q; simpl; auto 10. }
          rewrite X. destruct s as [|c s]; [contradiction|]. cbn [is_nilb negb andb]. apply negb_true_iff.
          destruct (is_space (last (c :: s) 0)) eqn:W; [|reflexivity]. apply whitespace_ok in W. exfalso.
          assert (In (last (c :: s) 0) (c :: s)).
          { rewrite (app_removelast_last 0 NE) at 2. apply in_or_app. right. now left. }
          now destruct (Hs _ H). }
        rewrite <- (app_nil_r (written b AsName v)). exact (Tmid _ _ _ 44 [32] _ _ _ T eq_refl Ty).
    - now apply select_agree.
    - destruct H as [H1 H2]. rewrite !text_unfold. cbn [blank str_body written].
      eapply agree_map2; [apply fine_sql; [apply F; now left|exact H1]|apply fine_sql; [apply F; simpl; auto|exact H2]|].
      intros x xb y yb T U. destruct t.
      + exact (Tmid _ _ _ 32 (lit "UNION ") _ _ _ T eq_refl U).
      + exact (Tmid _ _ _ 32 (lit "UNION ALL ") _ _ _ T eq_refl U).
    - apply insert_agree; [exact F| |exact H]. intros row p x c Hr Hp ->. apply (F2 (VValue c x)).
      + cbn [children]. unfold ins_vals. rewrite !in_app_iff. right. left. apply in_concat. eauto.
      + simpl. auto.
    - now apply update_agree.
    - now apply delete_agree. }
  intros v. apply (A (Datatypes.S (depth v))). lia.
Qed.
End All.

(** ** What is claimed *)
Lemma literals_map : forall a ab, code a = code ab -> List.length (literals a) = List.length (literals ab).
Proof.
  induction a as [|x a IH]; intros [|y ab] H; try discriminate; [reflexivity|]. cbn in H. injection H as H1 H2. apply IH in H2.
  cbn [literals flat_map]. rewrite !app_length. f_equal; [|exact H2]. destruct x, y; try discriminate H1; reflexivity.
Qed.
Lemma whole_query : forall E k v t, harmless (e_be E) k v -> render E k v = Ok t ->
  exists tb, render E k (blank k v) = Ok tb /\
    literals (tokens (dialect_of (e_be E)) t) = written (e_be E) k v /\
    code (tokens (dialect_of (e_be E)) t) = code (tokens (dialect_of (e_be E)) tb) /\
    Forall settled (tokens (dialect_of (e_be E)) t).
Proof.
  intros E k v t H T. destruct (everything_fine E v k H t T) as [tb [Tb [_ [_ [a [ab [P [Q [C [L S]]]]]]]]]].
  exists tb. split; [exact Tb|].
  assert (N : no_quote_first []) by (intros c x X; discriminate).
  specialize (P [] N). specialize (Q [] N). rewrite app_nil_r in P, Q. cbn in P, Q. rewrite app_nil_r in P, Q.
  now rewrite P, Q.
Qed.
Lemma whole_literals : forall E v t, harmless (e_be E) AsSql v -> text E v = Ok t ->
  literals (tokens (dialect_of (e_be E)) t) = written (e_be E) AsSql v /\
  Forall settled (tokens (dialect_of (e_be E)) t).
Proof. intros E v t H T. destruct (whole_query E AsSql v t H T) as [tb [_ [L [_ S]]]]. auto. Qed.
Lemma whole_code : forall E v w t u, harmless (e_be E) AsSql v -> harmless (e_be E) AsSql w ->
  blank AsSql v = blank AsSql w -> text E v = Ok t -> text E w = Ok u ->
  code (tokens (dialect_of (e_be E)) t) = code (tokens (dialect_of (e_be E)) u).
Proof.
  intros E v w t u Hv Hw B T U.
  destruct (whole_query E AsSql v t Hv T) as [tb [Tb [_ [C _]]]].
  destruct (whole_query E AsSql w u Hw U) as [ub [Ub [_ [D _]]]].
  rewrite B in Tb. cbn [render] in Tb, Ub. rewrite Tb in Ub. injection Ub as <-. now rewrite C, D.
Qed.
