(** Lemmas: the text of a query in which only one clause was used. *)
From Coq Require Import Lia.
From Verif Require Import Base BaseFacts NumFmt Value Backend Eq Render RenderFacts ParseArgs Build Queries History
  SpecArgs SpecHistory SpecClauses SpecLists SpecRead SpecRef PfHistories PfClauses PfStatements PfLists.
Open Scope N_scope.

Lemma last_such_none : forall A B (f : A -> option B) l, (forall x, In x l -> f x = None) -> last_such f l = None.
Proof.
  intros A B f l. induction l as [|x l IH] using rev_ind; intros H; [reflexivity|]. rewrite last_snoc, IH.
  - rewrite (H x); [reflexivity|apply in_or_app; right; now left].
  - intros y Hy. apply H, in_or_app. now left.
Qed.
Definition without (c : clause_name) (ops : list selop) : Prop := forall op, In op ops -> clause_of op <> c.
Lemma no_options : forall ops, without CnOptions ops -> filter (option_on ops) alphabetical = [].
Proof.
  intros ops W. assert (X : forall k, option_on ops k = false).
  { intros k. unfold option_on. rewrite last_such_none; [reflexivity|]. intros op I. pose proof (W op I) as N.
    destruct op; try reflexivity. now contradict N. }
  unfold alphabetical. simpl. rewrite !X. reflexivity.
Qed.
Lemma no_limits : forall ops, without CnLimit ops -> wanted_limit ops = None /\ wanted_offset ops = None.
Proof.
  intros ops W. unfold wanted_limit, wanted_offset. rewrite !last_such_none; [split; reflexivity| |];
    intros op I; pose proof (W op I) as N; destruct op; try reflexivity; now contradict N.
Qed.
Lemma no_out : forall E ops, without CnOutfile ops -> forall cl, out_clause E ops cl <-> cl = [].
Proof.
  intros E ops W cl. assert (X : wanted_out OFile ops = None).
  { unfold wanted_out. apply last_such_none. intros op I. pose proof (W op I) as N. destruct op; try reflexivity. now contradict N. }
  split; [intros C; inversion C; congruence|intros ->; now constructor].
Qed.
Lemma no_lock : forall ops, without CnLock ops -> locked ops = false.
Proof.
  intros ops W. unfold locked. rewrite last_such_none; [reflexivity|]. intros op I. pose proof (W op I) as N.
  destruct op; try reflexivity. now contradict N.
Qed.
Lemma clause_nil : forall A pre sep (P : A -> str -> Prop) cl, clause pre sep P [] cl <-> cl = [].
Proof. intros. split; [intros C; now inversion C|intros ->; constructor]. Qed.
Lemma columns_nil : forall E t, columns_text E [] t <-> t = lit "*".
Proof. intros. split; [intros C; now inversion C|intros ->; constructor]. Qed.
Lemma limit_nil : forall cl, limit_words None None cl <-> cl = [].
Proof. intros. split; [intros C; now inversion C|intros ->; constructor]. Qed.

Lemma only_without : forall c d (H : list (world * selop)), only c H -> c <> d -> without d (map snd H).
Proof. intros c d H O N op I. apply in_map_iff in I. destruct I as [wo [<- I]]. rewrite (O wo I). exact N. Qed.
Lemma only_fields : forall c H, only c H -> let q := calls sel_step empty_select H in
  (c <> CnColumns -> s_cols q = []) /\ (c <> CnTables -> s_tabs q = []) /\ (c <> CnWhere -> s_where q = []) /\
  (c <> CnGroup -> s_group q = []) /\ (c <> CnHaving -> s_having q = []) /\ (c <> CnOrder -> s_order q = []).
Proof.
  intros c H. cbn zeta. induction H as [|[W op] H IH] using rev_ind; intros O; [repeat split|].
  assert (OI : only c H) by (intros wo I; apply O, in_or_app; now left).
  assert (C : clause_of op = c) by (apply (O (W, op)), in_or_app; right; now left).
  destruct (IH OI) as [I1 [I2 [I3 [I4 [I5 I6]]]]]. rewrite calls_snoc. set (q := calls sel_step empty_select H) in *. clearbody q. subst c.
  destruct op; cbn [clause_of] in *; repeat split; intros N; try (now contradict N); cbn; auto.
Qed.
Lemma columns_only : forall E H t, only CnColumns H -> let q := calls sel_step empty_select H in
  text E (VSelect q) = Ok t <-> exists u, columns_text E (s_cols q) u /\ trimmed (words [lit "SELECT"; u]) t.
Proof.
  intros E H t O q. unfold q. rewrite select_statement. fold q. unfold select_text.
  destruct (only_fields _ _ O) as [_ [T [Wh [G [Hv Od]]]]]. fold q in T, Wh, G, Hv, Od. rewrite T, Wh, G, Hv, Od by discriminate.
  rewrite no_options by (eapply only_without; eauto; discriminate). rewrite no_lock by (eapply only_without; eauto; discriminate).
  destruct (no_limits (map snd H)) as [L1 L2]; [eapply only_without; eauto; discriminate|]. rewrite L1, L2.
  assert (NO : without CnOutfile (map snd H)) by (eapply only_without; eauto; discriminate). split.
  - intros (cs & fr & wh & gr & hv & od & li & out & C & F & C1 & C2 & C3 & C4 & L & Ou & Tr).
    apply clause_nil in F, C1, C2, C3, C4. apply limit_nil in L. apply (no_out E _ NO) in Ou. subst. exists cs. split; [exact C|exact Tr].
  - intros [u [C Tr]]. exists u, [], [], [], [], [], [], []. rewrite !clause_nil, limit_nil, (no_out E _ NO).
    do 8 (split; [auto|]). exact Tr.
Qed.
Lemma order_only : forall E H t, only CnOrder H -> let q := calls sel_step empty_select H in
  text E (VSelect q) = Ok t <->
  exists cl, clause (lit "ORDER BY ") (lit ", ") (order_text E) (s_order q) cl /\ trimmed (words ([lit "SELECT"; lit "*"] ++ cl)) t.
Proof.
  intros E H t O q. unfold q. rewrite select_statement. fold q. unfold select_text.
  destruct (only_fields _ _ O) as [Cs [T [Wh [G [Hv _]]]]]. fold q in Cs, T, Wh, G, Hv. rewrite Cs, T, Wh, G, Hv by discriminate.
  rewrite no_options by (eapply only_without; eauto; discriminate). rewrite no_lock by (eapply only_without; eauto; discriminate).
  destruct (no_limits (map snd H)) as [L1 L2]; [eapply only_without; eauto; discriminate|]. rewrite L1, L2.
  assert (NO : without CnOutfile (map snd H)) by (eapply only_without; eauto; discriminate). split.
  - intros (cs & fr & wh & gr & hv & od & li & out & C & F & C1 & C2 & C3 & C4 & L & Ou & Tr).
    apply columns_nil in C. apply clause_nil in F, C1, C2, C3. apply limit_nil in L. apply (no_out E _ NO) in Ou. subst. exists od.
    split; [exact C4|]. cbn [app] in Tr |- *. rewrite !app_nil_r in Tr. exact Tr.
  - intros [cl [C Tr]]. exists (lit "*"), [], [], [], [], cl, [], []. rewrite columns_nil, !clause_nil, limit_nil, (no_out E _ NO).
    do 8 (split; [auto|]). cbn [app] in Tr |- *. rewrite !app_nil_r. exact Tr.
Qed.
Lemma out_only : forall E H t, only CnOutfile H ->
  text E (VSelect (calls sel_step empty_select H)) = Ok t <->
  exists cl, out_clause E (map snd H) cl /\ trimmed (words ([lit "SELECT"; lit "*"] ++ cl)) t.
Proof.
  intros E H t O. rewrite select_statement. set (q := calls sel_step empty_select H). unfold select_text.
  destruct (only_fields _ _ O) as [Cs [T [Wh [G [Hv Od]]]]]. fold q in Cs, T, Wh, G, Hv, Od. rewrite Cs, T, Wh, G, Hv, Od by discriminate.
  rewrite no_options by (eapply only_without; eauto; discriminate). rewrite no_lock by (eapply only_without; eauto; discriminate).
  destruct (no_limits (map snd H)) as [L1 L2]; [eapply only_without; eauto; discriminate|]. rewrite L1, L2. split.
  - intros (cs & fr & wh & gr & hv & od & li & out & C & F & C1 & C2 & C3 & C4 & L & Ou & Tr).
    apply columns_nil in C. apply clause_nil in F, C1, C2, C3, C4. apply limit_nil in L. subst. exists out.
    split; [exact Ou|]. cbn [app] in Tr |- *. rewrite !app_nil_r in Tr. exact Tr.
  - intros [cl [C Tr]]. exists (lit "*"), [], [], [], [], [], [], cl. rewrite columns_nil, !clause_nil, limit_nil.
    do 8 (split; [auto|]). cbn [app] in Tr |- *. rewrite !app_nil_r. exact Tr.
Qed.
Lemma one_table : forall E n a js t,
  text E (VSelect (MkSel no_selopts [] [MkTable n a js] [] [] [] [] (MkLimits None None) (MkOutfile None None None None) false)) = Ok t <->
  exists u, table_text E (MkTable n a js) u /\ trimmed (words [lit "SELECT"; lit "*"; lit "FROM " ++ u]) t.
Proof.
  intros E n a js t. rewrite text_unfold. cbn [str_body]. unfold select_str.
  cbn [s_cols s_group s_having s_out s_limit s_order s_forupd s_opts s_tabs s_where is_nilb negb].
  change (part_ctx true (columns_str E (text E) [])) with (@Ok str (lit " *")).
  change (part_ctx (out_set (MkOutfile None None None None)) (out_str E (text E) (MkOutfile None None None None))) with (@Ok str []).
  change (part_ctx (limit_set (MkLimits None None)) (Ok (limit_str (MkLimits None None)))) with (@Ok str []).
  change (part_ctx (selopts_set no_selopts) (Ok (selopts_str no_selopts))) with (@Ok str []).
  change (part_ctx false (Ok (lit "FOR UPDATE"))) with (@Ok str []).
  change (forall x : res str, part_ctx false x = Ok []) with (forall x : res str, @Ok str [] = Ok []).
  unfold part_ctx. cbn [bind]. unfold tables_str. cbn [mapM].
  pose proof (table_ok E (MkTable n a js)) as TO. destruct (table_str E (text E) (MkTable n a js)) as [u|e]; cbn [bind].
  - assert (SP : spaced [lit "*"; lit "FROM " ++ u] = lit " * FROM " ++ u) by (simpl; now rewrite app_nil_r).
    unfold parts_str. cbn [is_nilb sjoin]. rewrite !app_nil_r. split.
    + intros H. exists u. split; [now apply TO|]. injection H as H. apply (strip_words 83 (lit "ELECT")); [reflexivity|]. rewrite SP. exact H.
    + intros [u' [T Tr]]. apply TO in T. injection T as <-. f_equal. apply (strip_words 83 (lit "ELECT")) in Tr; [|reflexivity]. rewrite SP in Tr. exact Tr.
  - split; [discriminate|]. intros [u [T _]]. apply TO in T. discriminate.
Qed.

(** *** The rows inside the text of INSERT *)
Lemma trimmed_keeps : forall x c y t, trimmed (x ++ c :: y) t -> ~ whitespace c -> exists y', t = x ++ c :: y'.
Proof.
  intros x c y t [ws [E [F _]]] N. revert t E. induction x as [|d x IH]; intros t E.
  - destruct t as [|d t]; cbn [app] in E.
    + subst ws. inversion F; subst. contradiction.
    + injection E as -> E. exists t. reflexivity.
  - destruct t as [|d' t]; cbn [app] in E.
    + subst ws. inversion F as [|? ? _ F2]; subst. apply Forall_app in F2. destruct F2 as [_ F2]. inversion F2; subst. contradiction.
    + injection E as -> E. destruct (IH t E) as [y' ->]. exists y'. reflexivity.
Qed.
Lemma words_mid : forall l x m, exists a b, words (l ++ x :: m) = a ++ x ++ b.
Proof.
  induction l as [|y l IH]; intros x m.
  - exists [], (spaced m). cbn [app]. apply words_cons.
  - destruct (IH x m) as [a [b E]]. cbn [app]. rewrite words_cons. destruct l as [|z l].
    + cbn [app] in *. exists (y ++ [c_sp]), (spaced m). rewrite spaced_cons, <- !app_assoc. reflexivity.
    + cbn [app] in *. exists (y ++ [c_sp] ++ a), b. rewrite spaced_cons. rewrite words_cons in E. rewrite <- !app_assoc. cbn [app].
      rewrite E. reflexivity.
Qed.
Lemma rows_end : forall E rows u, rows <> [] -> rows_text E rows u -> exists v, u = v ++ [c_rp].
Proof.
  intros E rows u N (cols & names & rs & _ & _ & [ts [F ->]] & ->).
  assert (X : forall ts rows, Forall2 (row_text E cols) rows ts -> rows <> [] -> exists v, sjoin (lit ", ") ts = v ++ [c_rp]).
  { clear. intros ts. induction ts as [|t ts IH]; intros rows F N; inversion F as [|row ? l ? RT F2]; subst; [congruence|].
    destruct RT as (vs & tv & _ & _ & ->). destruct ts as [|t2 ts].
    - exists (lit "(" ++ sjoin (lit ", ") tv). unfold in_parens. cbn [sjoin]. now rewrite <- app_assoc.
    - destruct (IH l F2) as [v E']; [inversion F2; discriminate|].
      change (sjoin (lit ", ") (in_parens (sjoin (lit ", ") tv) :: t2 :: ts)) with (in_parens (sjoin (lit ", ") tv) ++ lit ", " ++ sjoin (lit ", ") (t2 :: ts)).
      rewrite E'. exists (in_parens (sjoin (lit ", ") tv) ++ lit ", " ++ v). now rewrite <- !app_assoc. }
  destruct (X _ _ F N) as [v ->]. exists (in_parens names ++ lit " VALUES " ++ v). now rewrite <- !app_assoc.
Qed.
Lemma insert_rows : forall E H t, let q := calls ins_step empty_insert H in
  i_rows q <> [] -> text E (VInsert q) = Ok t ->
  exists rows u before after, i_rows q = map row_parts rows /\ rows_text E rows u /\ t = before ++ u ++ after.
Proof.
  intros E H t q N T. unfold q in T. apply insert_statement in T. fold q in T.
  destruct T as (tb & rw & du & cc & cf & _ & R & _ & _ & _ & Tr). inversion R as [Z|rows u NE RT Z]; subst; [congruence|].
  rewrite Z. destruct (rows_end E rows u NE RT) as [v ->].
  match type of Tr with trimmed (words ([?k] ++ ?i ++ [?o] ++ tb ++ [?u] ++ ?r)) t =>
    destruct (words_mid ([k] ++ i ++ [o] ++ tb) u r) as [a [b W]] end.
  rewrite <- !app_assoc in W. cbn [app] in W, Tr. rewrite W in Tr. rewrite app_assoc in Tr.
  destruct (trimmed_keeps _ _ _ _ Tr) as [y ->].
  { intros X. vm_compute in X. intuition discriminate. }
  exists rows, (v ++ [c_rp]), a, y. split; [congruence|]. split; [exact RT|]. rewrite <- !app_assoc. reflexivity.
Qed.
