(** Proofs: the options of a SELECT among any other calls (C26, C27). *)
From Verif Require Import Base BaseFacts NumFmt Value Backend Eq Render RenderFacts ParseArgs Build Queries History SpecRead SpecHistory SpecOptions PfHistories.
Open Scope N_scope.

Lemma words_join : forall k l, lit " " ++ sjoin (lit " ") (map option_name (k :: l)) = words (k :: l).
Proof.
  intros k l. revert k. induction l as [|x l IH]; intros k; [unfold words; cbn [map sjoin List.concat]; now rewrite app_nil_r|].
  change (words (k :: x :: l)) with ((lit " " ++ option_name k) ++ words (x :: l)). rewrite <- IH.
  change (sjoin (lit " ") (map option_name (k :: x :: l))) with (option_name k ++ lit " " ++ sjoin (lit " ") (map option_name (x :: l))).
  now rewrite <- app_assoc.
Qed.
(** Select with other options. *)
Definition body (E : env) (q : selq val) (o : selopts) : res str := text E (VSelect (with_opts q o)).
Lemma word_end : forall k, exists w c, lit " " ++ option_name k = w ++ [c] /\ is_space c = false.
Proof. intros k. destruct k; match goal with |- exists w c, ?s = _ /\ _ => exists (removelast s), (last s 0) end; split; vm_compute; reflexivity. Qed.
Lemma words_end : forall k l, exists w c, words (k :: l) = w ++ [c] /\ is_space c = false.
Proof.
  intros k l. revert k. induction l as [|x l IH]; intros k.
  - destruct (word_end k) as [w [c [Q C]]]. exists w, c. split; [|exact C]. unfold words. cbn [map List.concat]. now rewrite app_nil_r.
  - destruct (IH x) as [w [c [Q C]]]. exists ((lit " " ++ option_name k) ++ w), c. split; [|exact C].
    change (words (k :: x :: l)) with ((lit " " ++ option_name k) ++ words (x :: l)). now rewrite Q, app_assoc.
Qed.
Lemma strip_words : forall l x, strip (lit "SELECT" ++ words l ++ x) = lit "SELECT" ++ words l ++ rstrip x.
Proof.
  intros l x. destruct l as [|k l].
  - exact (strip_app_stop 83 (lit "ELEC") 84 x eq_refl eq_refl).
  - destruct (words_end k l) as [w [c [-> C]]].
    transitivity (strip ((83 :: (lit "ELECT" ++ w)) ++ c :: x)); [f_equal; cbn; now rewrite <- !app_assoc|].
    etransitivity; [exact (strip_app_stop 83 (lit "ELECT" ++ w) c x eq_refl C)|]. cbn. now rewrite <- !app_assoc.
Qed.
Lemma opts_words : forall o, part_ctx (selopts_set o) (Ok (selopts_str o)) = Ok (words (filter (opt_state o) alphabetical)).
Proof.
  intros o. destruct (opts_text o) as [T1 T2]. rewrite T1, T2, existsb_filter. destruct (filter (opt_state o) alphabetical) as [|k l]; [reflexivity|].
  cbn [is_nilb negb part_ctx bind]. f_equal. exact (words_join k l).
Qed.
(** Everything but the options of a SELECT, or the exception. *)
Lemma select_rest : forall E q, (exists r, forall o, body E q o = Ok (lit "SELECT" ++ words (filter (opt_state o) alphabetical) ++ r)) \/
  (exists e, forall o, body E q o = Err e).
Proof.
  intros E q. unfold body. set (r := text E).
  assert (B : forall o, r (VSelect (with_opts q o)) =
    do columns <- part_ctx true (columns_str E r (s_cols q));
    do group_by <- part_ctx (negb (is_nilb (s_group q))) (orders_str E r (lit "GROUP BY") (s_group q));
    do having <- part_ctx (negb (is_nilb (s_having q))) (conds_str r (lit "HAVING") (s_having q));
    do into_outfile <- part_ctx (out_set (s_out q)) (out_str E r (s_out q));
    do limit <- part_ctx (limit_set (s_limit q)) (Ok (limit_str (s_limit q)));
    do order_by <- part_ctx (negb (is_nilb (s_order q))) (orders_str E r (lit "ORDER BY") (s_order q));
    do for_update <- part_ctx (s_forupd q) (Ok (lit "FOR UPDATE"));
    do tables <- part_ctx (negb (is_nilb (s_tabs q))) (tables_str E r (lit "FROM") (s_tabs q));
    do where_ <- part_ctx (negb (is_nilb (s_where q))) (conds_str r (lit "WHERE") (s_where q));
    Ok (strip (lit "SELECT" ++ words (filter (opt_state o) alphabetical) ++ columns ++ tables ++ where_ ++ group_by ++ having
               ++ order_by ++ limit ++ into_outfile ++ for_update))).
  { intros o. unfold r. rewrite text_unfold. cbn [str_body]. unfold select_str. destruct q as [so cols tabs wh gr hv od li ou fu].
    cbn [with_opts s_opts s_cols s_tabs s_where s_group s_having s_order s_limit s_out s_forupd]. rewrite opts_words. reflexivity. }
  repeat match type of B with context [bind (part_ctx ?a ?b) _] =>
    let e := fresh "e" in let R := fresh in destruct (part_ctx a b) as [?|e] eqn:R; cbn [bind] in B; [clear R|right; exists e; exact B] end.
  left. eexists. intros o. rewrite B. f_equal. apply strip_words.
Qed.
Lemma options_apart : forall H q, exists o, calls sel_step q H = with_opts (calls sel_step q (filter (fun c => no_option (snd c)) H)) o.
Proof.
  assert (S : forall W q o op, no_option op = true -> fst (sel_step W (with_opts q o) op) = with_opts (fst (sel_step W q op)) o).
  { intros W [so cols tabs wh gr hv od li ou fu] o op N. destruct op; try discriminate N;
      cbn [sel_step with_opts s_opts s_cols s_tabs s_where s_group s_having s_order s_limit s_out s_forupd]; unfold lift1;
      try match goal with |- context [let (_, _) := ?x in _] => destruct x end; reflexivity. }
  assert (R : forall q, with_opts q (s_opts q) = q) by (intros []; reflexivity).
  induction H as [|[W op] H IH] using rev_ind; intros q; [exists (s_opts q); now rewrite R|].
  rewrite calls_snoc, filter_app. cbn [filter snd fst]. destruct (IH q) as [o O]. rewrite O. destruct (no_option op) eqn:N.
  - rewrite calls_snoc. exists o. cbn [fst snd]. apply S. exact N.
  - rewrite app_nil_r. destruct op; try discriminate N. cbn [sel_step fst snd].
    exists (set_selopt o k (truthy allow)). set (q0 := calls sel_step q (filter _ H)). destruct q0. reflexivity.
Qed.
Lemma with_opts_twice : forall (q : selq val) o o', with_opts (with_opts q o) o' = with_opts q o'.
Proof. intros [] o o'. reflexivity. Qed.
Lemma options_among : forall E H, let q := VSelect (calls sel_step empty_select H) in
  let q0 := VSelect (calls sel_step empty_select (filter (fun c => no_option (snd c)) H)) in
  (exists r, text E q0 = Ok (lit "SELECT" ++ r) /\
             text E q = Ok (lit "SELECT" ++ words (filter (option_on (map snd H)) alphabetical) ++ r)) \/
  (exists e, text E q0 = Err e /\ text E q = Err e).
Proof.
  intros E H. cbv zeta. destruct (options_apart H empty_select) as [o O]. pose proof (options_inv H) as I. rewrite O in I.
  set (q := calls sel_step empty_select (filter _ H)) in *. rewrite O.
  assert (Z : forall k, opt_state (s_opts q) k = false).
  { intros k. unfold q. rewrite options_inv. clear. induction H as [|[W op] H IH] using rev_ind; [destruct k; reflexivity|].
    rewrite filter_app, map_app. cbn [filter snd]. destruct op; cbn [no_option]; try (cbn [map snd]; rewrite ?app_nil_r; unfold option_on in *; rewrite ?last_snoc; exact IH). }
  assert (Q : q = with_opts q (s_opts q)) by (destruct q; reflexivity).
  destruct (select_rest E q) as [[r R]|[e R]].
  - left. exists r. split.
    + pattern q at 1. rewrite Q. change (body E q (s_opts q) = Ok (lit "SELECT" ++ r)). rewrite R.
      rewrite (filter_ext _ (fun _ => false) Z). replace (filter (fun _ => false) alphabetical) with (@nil selopt) by reflexivity. reflexivity.
    + change (body E q o = Ok (lit "SELECT" ++ words (filter (option_on (map snd H)) alphabetical) ++ r)). rewrite R. do 3 f_equal. f_equal.
      apply filter_ext. intros k. rewrite <- I. destruct q; reflexivity.
  - right. exists e. split; [|exact (R o)]. pattern q at 1. rewrite Q. exact (R (s_opts q)).
Qed.
Lemma option_off : forall ops k v k', truthy v = false ->
  option_on (ops ++ [SOpt k v]) k' = if optgroup_eqb (group_of k) (group_of k') then false else option_on ops k'.
Proof.
  intros ops k v k' Hv. unfold option_on. rewrite last_snoc. rewrite Hv.
  destruct (optgroup_eqb (group_of k) (group_of k')); reflexivity.
Qed.
Lemma off_exactly : forall E H W k v, truthy v = false ->
  let q := VSelect (calls sel_step empty_select H) in let q' := VSelect (calls sel_step empty_select (H ++ [(W, SOpt k v)])) in
  let on := option_on (map snd H) in
  (exists r, text E q = Ok (lit "SELECT" ++ words (filter on alphabetical) ++ r) /\
             text E q' = Ok (lit "SELECT" ++ words (filter (fun k' => on k' && negb (optgroup_eqb (group_of k) (group_of k'))) alphabetical) ++ r)) \/
  (exists e, text E q = Err e /\ text E q' = Err e).
Proof.
  intros E H W k v T. cbv zeta. pose proof (options_among E H) as A. pose proof (options_among E (H ++ [(W, SOpt k v)])) as B. cbv zeta in A, B.
  rewrite filter_app in B. cbn [filter snd no_option] in B. rewrite app_nil_r, map_app in B. cbn [map snd] in B.
  destruct A as [[r [A1 A2]]|[e [A1 A2]]].
  - left. exists r. split; [exact A2|]. destruct B as [[r' [B1 B2]]|[e' [B1 B2]]]; [|congruence].
    assert (r' = r) as -> by (rewrite A1 in B1; injection B1; auto). rewrite B2. do 3 f_equal. f_equal. apply filter_ext. intros k'.
    rewrite option_off by exact T. destruct (optgroup_eqb _ _); [now rewrite Bool.andb_false_r|now rewrite Bool.andb_true_r].
  - right. exists e. split; [exact A2|]. destruct B as [[r' [B1 B2]]|[e' [B1 B2]]]; congruence.
Qed.
