(** Proofs about failing calls: C43, C44. *)
From Coq Require Import Lia.
From Verif Require Import Base BaseFacts NumFmt Value Backend Eq Render RenderFacts ParseArgs Build Queries History
  SpecHistory SpecClauses SpecArgs SpecLists SpecBackends SpecErrors PfHistories PfArgs PfClauses PfStatements PfLists PfClauseText PfBackends.
Open Scope N_scope.

(** ** C43: at most one item *)
Lemma commit_err : forall S (s s' : S) x e, commit s x = (s', Err e) -> s' = s.
Proof. intros S s s' [y|y] e H; cbn in H; congruence. Qed.
Lemma foldE_one : forall S A (f : S -> A -> S * outcome) s l s' e, (forall x s' e, f s x = (s', Err e) -> s' = s) -> (List.length l <= 1)%nat ->
  foldE f s l = (s', Err e) -> s' = s.
Proof.
  intros S A f s l s' e H L. destruct l as [|x [|y l]]; cbn [foldE]; [discriminate| |cbn in L; lia].
  destruct (f s x) as [s1 [u|e1]] eqn:F; [discriminate|]. intros Q. injection Q as -> _. exact (H _ _ _ F).
Qed.
Lemma mapM_len : forall A B (f : A -> res B) l r, mapM f l = Ok r -> List.length r = List.length l.
Proof.
  intros A B f. induction l as [|x l IH]; intros r; cbn [mapM]; [intros Q; now injection Q as <-|].
  destruct (f x); [|discriminate]. destruct (mapM f l) as [ys|]; [|discriminate]. intros Q. injection Q as <-. cbn. now rewrite (IH ys).
Qed.
Lemma sort_items_len : forall W l s, sort_items W l = Ok s -> (List.length l <= 1)%nat -> s = l.
Proof. intros W l s H L. destruct l as [|a [|b l]]; [now injection H|now injection H|cbn in L; lia]. Qed.
Lemma insert_len : forall A (lt : A -> A -> bool) x l, List.length (oinsert lt x l) = S (List.length l).
Proof. intros A lt x. induction l as [|y l IH]; cbn; [reflexivity|]. destruct (lt y x); cbn; [now rewrite IH|reflexivity]. Qed.
Lemma osort_len : forall A (lt : A -> A -> bool) l, List.length (osort lt l) = List.length l.
Proof. intros A lt. induction l as [|x l IH]; cbn; [reflexivity|]. now rewrite insert_len, IH. Qed.
Lemma kwds_len : forall k, List.length (sort_kwds k) = List.length k.
Proof. intros k. unfold sort_kwds. now rewrite map_length, osort_len. Qed.
Lemma parse_name_len : forall W a k r, one_name a k -> parse_args W alias_opts a k = Ok r -> (List.length r <= 1)%nat.
Proof.
  intros W a k r [L D] P. unfold parse_args, bind in P.
  destruct a as [|x [|y a]]; [| |cbn in L; lia].
  - destruct k as [|kv k]; [injection P as <-; cbn; lia|]. cbn [p_dict alias_opts] in P.
    destruct (parse_items _ _) as [bt|] eqn:Q; [|discriminate]. injection P as <-. apply mapM_len in Q. rewrite kwds_len in Q. cbn in *. lia.
  - destruct k; [|cbn in L; lia]. cbn [p_min p_max p_dict p_list alias_opts Nat.ltb Nat.leb andb] in P.
    assert (K : forall r0, parse_list alias_opts [x] = Ok r0 -> (List.length r0 <= 1)%nat).
    { intros r0 Q. apply mapM_len in Q. rewrite Q. cbn. lia. }
    destruct x as [| | | | | | | | |kk l|items| | | | | | | | | | | | | | | | | | | |]; cbn [Nat.leb] in P;
      try (destruct (parse_list alias_opts _) as [bt|] eqn:Q; [|discriminate]; injection P as <-; rewrite app_nil_r; exact (K _ eq_refl)).
    + destruct kk; (destruct (parse_list alias_opts _) as [bt|] eqn:Q; [|discriminate]; injection P as <-; rewrite app_nil_r; exact (K _ eq_refl)).
    + destruct (sort_items W items) as [s|] eqn:S; [|discriminate]. specialize (D items eq_refl).
      rewrite (sort_items_len _ _ _ S D) in P. destruct (parse_items _ items) as [bt|] eqn:Q; [|discriminate]. injection P as <-.
      apply mapM_len in Q. cbn [app]. lia.
Qed.
Lemma parse_pair_len : forall W a k r, one_pair a k -> parse_args W pair_opts a k = Ok r -> (List.length r <= 1)%nat.
Proof.
  intros W a k r O P. destruct O as [|c v|c v S _|a l G L|items k L|a S D].
  - unfold parse_args, bind in P. injection P as <-. cbn. lia.
  - unfold parse_args, bind in P. cbn [p_dict pair_opts] in P. destruct (parse_items _ _) as [bt|] eqn:Q; [|discriminate]. injection P as <-.
    apply mapM_len in Q. rewrite kwds_len in Q. cbn in *. lia.
  - unfold parse_args, bind in P. apply scalar_lot in S. rewrite S in P. cbn in P. destruct c; injection P as <-; cbn; lia.
  - unfold parse_args, bind in P. destruct G as [-> | ->]; cbn [List.length p_min p_max p_dict p_list pair_opts Nat.ltb Nat.leb andb is_list_or_tuple negb] in P;
      (destruct (parse_list pair_opts l) as [bt|] eqn:Q; [|discriminate]); injection P as <-; apply mapM_len in Q; rewrite app_nil_r; lia.
  - unfold parse_args, bind in P. cbn [List.length p_min p_max p_dict p_list pair_opts Nat.ltb Nat.leb andb is_list_or_tuple negb] in P.
    destruct (sort_items W items) as [s|] eqn:S; [|discriminate]. rewrite (sort_items_len _ _ _ S L) in P.
    destruct (parse_items _ items) as [bt|] eqn:Q; [|discriminate]. injection P as <-. apply mapM_len in Q. cbn [app]. lia.
  - unfold parse_args, bind in P. pose proof (parse_scalar pair_opts a S) as PS. apply scalar_lot in S. rewrite S in P.
    cbn [List.length p_min p_max p_dict p_list pair_opts Nat.ltb Nat.leb andb negb] in P.
    assert (K : parse_list pair_opts [a] = Err EInvalidArgument). { unfold parse_list. cbn [mapM]. rewrite PS. reflexivity. }
    destruct a as [| | | | | | | | |kk l|items| | | | | | | | | | | | | | | | | | | |]; rewrite ?K in P; try discriminate.
    + destruct kk; rewrite ?K in P; try discriminate.
    + exfalso. eapply D. reflexivity.
Qed.
Ltac one_item := let x := fresh in intros x ? ? ?; destruct (nth2 x); eapply commit_err; eassumption.
Lemma where_one : forall W c ps a k ps' e, one_pair a k -> conds_where W c ps a k = (ps', Err e) -> ps' = ps.
Proof.
  intros W c ps a k ps' e O H. unfold conds_where in H.
  assert (N : match parse_args W pair_opts a k with
       | Err e => (ps, Err e)
       | Ok items => foldE (fun s it => let (c0, v) := nth2 it in commit s (do x <- mk_condition c c0 v; append_unique (w_eq W) s x)) ps items
       end = (ps', Err e) -> ps' = ps).
  { pose proof (parse_pair_len W a k) as L. destruct (parse_args W pair_opts a k) as [items|e']; [|intros Q; congruence].
    apply foldE_one; [one_item|]. exact (L items O eq_refl). }
  assert (C : forallb is_conds a = true -> (List.length a <= 1)%nat \/ False).
  { intros F. destruct O as [|c0 v|c0 v S T|a l G L|items k L|a S D]; try (left; cbn; lia). exfalso.
    cbn [forallb] in F. apply andb_prop in F. destruct F as [F1 F2]. apply andb_prop in F2. destruct F2 as [F2 _].
    destruct T as [T|T]; [destruct c0|destruct v]; try discriminate. }
  assert (M : (if negb (is_nilb a) && forallb is_conds a
      then foldE (fun s x => commit s (append_unique (w_eq W) s x)) ps a
      else match parse_args W pair_opts a k with
       | Err e => (ps, Err e)
       | Ok items => foldE (fun s it => let (c0, v) := nth2 it in commit s (do x <- mk_condition c c0 v; append_unique (w_eq W) s x)) ps items
       end) = (ps', Err e) -> ps' = ps).
  { destruct (negb _); cbn [andb]; [|exact N]. destruct (forallb is_conds a); [|exact N].
    destruct (C eq_refl) as [L|[]]. apply foldE_one; [|exact L]. intros x s' e'. apply commit_err. }
  destruct a as [|x [|y a]]; [exact (M H)| |exact (M H)]. destruct k; [|exact (M H)]. destruct (is_sql x); [discriminate|exact (N H)].
Qed.
Lemma values_one : forall W ps a k ps' e, one_pair a k -> values_set W ps a k = (ps', Err e) -> ps' = ps.
Proof.
  intros W ps a k ps' e O H. unfold values_set in H.
  assert (N : match parse_args W pair_opts a k with
       | Err e => (ps, Err e)
       | Ok items => foldE (fun s it => let (c0, v) := nth2 it in commit s (do x <- mk_value c0 v; append_unique (w_eq W) s x)) ps items
       end = (ps', Err e) -> ps' = ps).
  { pose proof (parse_pair_len W a k) as L. destruct (parse_args W pair_opts a k) as [items|e']; [|intros Q; congruence].
    apply foldE_one; [one_item|]. exact (L items O eq_refl). }
  destruct a as [|x [|y a]]; [exact (N H)| |exact (N H)]. destruct k; [|exact (N H)]. destruct (is_sql x); [discriminate|exact (N H)].
Qed.
Lemma columns_one : forall W ps a k ps' e, one_name a k -> columns_add W ps a k = (ps', Err e) -> ps' = ps.
Proof.
  intros W ps a k ps' e O H. unfold columns_add in H. pose proof (parse_name_len W a k) as L.
  destruct (parse_args W alias_opts a k) as [items|e']; [|congruence]. revert H. apply foldE_one; [one_item|]. exact (L items O eq_refl).
Qed.
Lemma orders_one : forall W ps a k ps' e, one_name a k -> orders_add W ps a k = (ps', Err e) -> ps' = ps.
Proof.
  intros W ps a k ps' e O H. unfold orders_add in H. pose proof (parse_name_len W a k) as L.
  destruct (parse_args W alias_opts a k) as [items|e']; [|congruence]. revert H. apply foldE_one; [one_item|]. exact (L items O eq_refl).
Qed.
Lemma one_name_filter : forall a k, one_name a k -> one_name (filter truthy a) k.
Proof.
  intros a k [L D]. destruct a as [|x [|y a]]; [split; assumption| |cbn in L; lia]. cbn [filter]. destruct (truthy x); [split; assumption|].
  split; [cbn in *; lia|discriminate].
Qed.
Lemma tables_one : forall W ps a k ps' e, one_name a k -> tables_set W ps a k = (ps', Err e) -> ps' = ps.
Proof.
  intros W ps a k ps' e O H. unfold tables_set in H. apply one_name_filter in O. pose proof (parse_name_len W (filter truthy a) k) as L.
  destruct (parse_args W alias_opts (filter truthy a) k) as [items|e']; [|congruence]. revert H. apply foldE_one; [one_item|]. exact (L items O eq_refl).
Qed.
Lemma upd_last_err : forall A (f : A -> A * outcome) l l' e, (forall x x' e, f x = (x', Err e) -> x' = x) ->
  upd_last f l = Some (l', Err e) -> l' = l.
Proof.
  intros A f l l' e H. revert l'. induction l as [|x l IH]; intros l' U; [discriminate|]. destruct l as [|y l].
  - cbn in U. destruct (f x) as [z o] eqn:F. injection U as <- ->. now rewrite (H _ _ _ F).
  - change (upd_last f (x :: y :: l)) with (match upd_last f (y :: l) with Some (r', b) => Some (x :: r', b) | None => None end) in U.
    destruct (upd_last f (y :: l)) as [[r o]|]; [|discriminate]. injection U as <- ->. f_equal. now apply IH.
Qed.
Lemma on_last_err : forall (f : table val -> table val * outcome) ts ts' e, (forall x x' e, f x = (x', Err e) -> x' = x) -> on_last_table f ts = (ts', Err e) -> ts' = ts.
Proof.
  intros f ts ts' e H. unfold on_last_table. destruct (upd_last f ts) as [[l o]|] eqn:U; intros Q; [|congruence].
  assert (o = Err e) by congruence. assert (l = ts') by congruence. subst. exact (upd_last_err _ _ _ _ _ H U).
Qed.
Lemma join_one : forall W ty ts arg ts' e, tables_join W ty ts arg = (ts', Err e) -> ts' = ts.
Proof.
  intros W ty ts arg ts' e H.
  assert (K : forall ty, on_last_table (table_join W ty arg) ts = (ts', Err e) -> ts' = ts).
  { intros ty'. apply on_last_err. intros x x' e'. apply commit_err. }
  destruct ty; try exact (K _ H). cbn [tables_join] in H. destruct (supports_full_join _); [exact (K _ H)|congruence].
Qed.
Lemma on_one : forall W ts a k ts' e, one_pair a k -> tables_on W ts a k = (ts', Err e) -> ts' = ts.
Proof.
  intros W ts a k ts' e O. apply on_last_err. intros [n al js] t' e' H. unfold table_on in H. cbn [tb_name tb_alias tb_joins] in H.
  match type of H with match ?u with _ => _ end = _ => destruct u as [[js' o]|] eqn:U; [|congruence] end.
  injection H as <- ->. f_equal. revert U. apply upd_last_err. intros [ty n' al' ons] j' e'' J. cbn [j_type j_name j_alias j_ons] in J.
  destruct (conds_where W KOn ons a k) as [ons' o] eqn:C. injection J as <- ->. now rewrite (where_one _ _ _ _ _ _ _ O C).
Qed.
Lemma one_table_name : forall t, single_table t -> one_name [t] [].
Proof. intros t O. split; [cbn; lia|]. intros items Q. injection Q as ->. now apply O. Qed.
Lemma tuple_name : forall t a, one_name [VSeq KTuple [t; a]] [].
Proof. intros t a. split; [cbn; lia|discriminate]. Qed.
Lemma lift_err : forall P Q (f : P -> Q) (x : P * outcome) p q e, f p = q -> (forall p', x = (p', Err e) -> p' = p) ->
  forall q', lift1 f x = (q', Err e) -> q' = q.
Proof. intros P Q f [p0 o] p q e F H q' L. unfold lift1 in L. cbn [fst snd] in L. injection L as <- ->. rewrite <- F. f_equal. now apply H. Qed.
Lemma single_unchanged :
  (forall W q op q' e, single_sel op -> sel_step W q op = (q', Err e) -> q' = q) /\
  (forall W q op q' e, single_upd op -> upd_step W q op = (q', Err e) -> q' = q) /\
  (forall W q op q' e, single_del op -> del_step W q op = (q', Err e) -> q' = q) /\
  (forall W q op q' e, single_ins (e_be (w_env W)) op -> ins_step W q op = (q', Err e) -> q' = q).
Proof.
  split; [|split; [|split]].
  - intros W q op q' e S. destruct q as [op0 c t w g h o l out fu].
    destruct op; cbn [single_sel sel_step s_cols s_tabs s_where s_having s_group s_order s_limit s_out] in *.
    + eapply lift_err; [|intros p; exact (columns_one _ _ _ _ _ _ S)]. reflexivity.
    + eapply lift_err; [|intros p; exact (tables_one _ _ _ _ _ _ S)]. reflexivity.
    + eapply lift_err; [|intros p; exact (tables_one _ _ _ _ _ _ (tuple_name _ _))]. reflexivity.
    + eapply lift_err; [|intros p; exact (join_one _ _ _ _ _ _)]. reflexivity.
    + eapply lift_err; [|intros p; exact (on_one _ _ _ _ _ _ S)]. reflexivity.
    + eapply lift_err; [|intros p; exact (where_one _ _ _ _ _ _ _ S)]. reflexivity.
    + eapply lift_err; [|intros p; exact (where_one _ _ _ _ _ _ _ S)]. reflexivity.
    + eapply lift_err; [|intros p; exact (orders_one _ _ _ _ _ _ S)]. reflexivity.
    + eapply lift_err; [|intros p; exact (orders_one _ _ _ _ _ _ S)]. reflexivity.
    + subst o0. eapply lift_err with (p := l); [reflexivity|]. intros p. unfold set_limit. destruct (negb _); [congruence|].
      destruct l0; cbn; try discriminate; try congruence.
    + eapply lift_err with (p := l); [reflexivity|]. intros p. unfold set_offset. destruct (negb _); [congruence|].
      destruct (truthy o0); [|discriminate]. destruct (py_int o0); congruence.
    + eapply lift_err with (p := out); [reflexivity|]. intros p. unfold set_out. destruct (negb _); [congruence|discriminate].
    + discriminate.
    + discriminate.
  - intros W [ig t v w al] op q' e S. destruct op; cbn [single_upd upd_step] in *; try discriminate.
    + eapply lift_err; [|intros p; exact (tables_one _ _ _ _ _ _ (one_table_name _ S))]. reflexivity.
    + eapply lift_err; [|intros p; exact (values_one _ _ _ _ _ _ S)]. reflexivity.
    + eapply lift_err; [|intros p; exact (where_one _ _ _ _ _ _ _ S)]. reflexivity.
    + eapply lift_err; [|intros p; exact (join_one _ _ _ _ _ _)]. reflexivity.
    + eapply lift_err; [|intros p; exact (on_one _ _ _ _ _ _ S)]. reflexivity.
  - intros W [ig t v w al] op q' e S. destruct op; cbn [single_del del_step] in *; try discriminate.
    + eapply lift_err; [|intros p; exact (tables_one _ _ _ _ _ _ S)]. reflexivity.
    + eapply lift_err; [|intros p; exact (tables_one _ _ _ _ _ _ S)]. reflexivity.
    + eapply lift_err; [|intros p; exact (tables_one _ _ _ _ _ _ (tuple_name _ _))]. reflexivity.
    + eapply lift_err; [|intros p; exact (where_one _ _ _ _ _ _ _ S)]. reflexivity.
    + eapply lift_err; [|intros p; exact (join_one _ _ _ _ _ _)]. reflexivity.
    + eapply lift_err; [|intros p; exact (on_one _ _ _ _ _ _ S)]. reflexivity.
  - intros W [rp ig t rows dup cf upd] op q' e S. destruct op; cbn [single_ins ins_step] in *; try discriminate.
    + eapply lift_err; [|intros p; exact (tables_one _ _ _ _ _ _ (one_table_name _ S))]. reflexivity.
    + eapply lift_err with (p := rows); [reflexivity|]. intros p. unfold rows_add. destruct (values_set W [] args kwds) as [ps [u|e']]; congruence.
    + destruct (e_be (w_env W)); cbn [supports_on_duplicate_key_update supports_on_conflict_do_update supports_replace_into].
      * discriminate.
      * destruct (values_set W dup args kwds) as [dup' [u|e']] eqn:V; [discriminate|]. intros Q. injection Q as <- ->.
        now rewrite (values_one _ _ _ _ _ _ S V).
      * unfold conflict_set. destruct args as [|a args]; [congruence|]. destruct a; try congruence. exfalso. eapply S. reflexivity.
      * destruct (_ || _); [congruence|discriminate].
Qed.

(** ** C43: several items *)
Lemma foldE_split : forall S A (f : S -> A -> S * outcome) l s s' e, foldE f s l = (s', Err e) ->
  exists pre x post s0, l = pre ++ x :: post /\ foldE f s pre = (s0, Ok tt) /\ f s0 x = (s', Err e).
Proof.
  intros S A f. induction l as [|x l IH]; intros s s' e; cbn [foldE]; [discriminate|].
  destruct (f s x) as [s1 [u|e1]] eqn:F.
  - intros H. destruct (IH _ _ _ H) as [pre [y [post [s0 [-> [P Q]]]]]]. exists (x :: pre), y, post, s0. split; [reflexivity|].
    split; [|exact Q]. cbn [foldE]. rewrite F. exact P.
  - intros H. injection H as <- <-. exists [], x, l, s. split; [reflexivity|]. split; [reflexivity|exact F].
Qed.
Lemma foldE_batches : forall S (g : S -> val -> val -> S * outcome) ps s,
  foldE (fun s it => let (c, v) := nth2 it in g s c v) s (batches ps) = foldE (fun s p => g s (fst p) (snd p)) s ps.
Proof.
  intros S g. induction ps as [|[c v] ps IH]; intros s; [reflexivity|]. cbn [batches map foldE nth2 fst snd].
  destruct (g s c v) as [s' [u|e]]; [apply IH|reflexivity].
Qed.
Section Items.
  Context {Q Op S : Type} (step : world -> Q -> Op -> Q * outcome) (W : world) (st : S -> Q) (g : S -> val -> val -> res S).
  Variables (op : Op) (alone : val * val -> Op) (items : list (val * val) -> Prop).
  Hypothesis A : forall s p, step W (st s) (alone p) = lift1 st (commit s (g s (fst p) (snd p))).
  Lemma run_items : forall l s, foldE (step W) (st s) (map alone l) = lift1 st (foldE (fun s p => commit s (g s (fst p) (snd p))) s l).
  Proof.
    induction l as [|p l IH]; intros s; [reflexivity|]. cbn [map foldE]. rewrite A. unfold lift1 at 1.
    destruct (g s (fst p) (snd p)) as [s'|e]; cbn [commit fst snd]; [apply IH|reflexivity].
  Qed.
  Lemma failing_items : forall s q' e,
    (exists ps, items ps /\ step W (st s) op = lift1 st (foldE (fun s p => commit s (g s (fst p) (snd p))) s ps)) \/
    (exists e', step W (st s) op = (st s, Err e')) \/ (exists q2, step W (st s) op = (q2, Ok tt)) ->
    step W (st s) op = (q', Err e) ->
    q' = st s \/ exists pre p post, items (pre ++ p :: post) /\ foldE (step W) (st s) (map alone pre) = (q', Ok tt) /\
                                     step W q' (alone p) = (q', Err e).
  Proof.
    intros s q' e [[ps [I E]]|[[e' E]|[q2 E]]] H; [|left; congruence|congruence]. right. rewrite E in H. clear E. unfold lift1 in H.
    destruct (foldE _ s ps) as [s' o] eqn:F. cbn [fst snd] in H. injection H as <- ->.
    destruct (foldE_split _ _ _ _ _ _ _ F) as [pre [p [post [s0 [-> [P X]]]]]]. exists pre, p, post. split; [exact I|].
    pose proof X as Y. apply commit_err in Y. subst s0. rewrite run_items, P. split; [reflexivity|]. rewrite A, X. reflexivity.
  Qed.
End Items.
(** The loops as loops over items. *)
Lemma columns_items : forall W s a k, keys_ok a k ->
  (exists ps, alias_args a k ps /\ columns_add W s a k = foldE (fun s p => commit s (do x <- mk_column (fst p) (snd p); append_unique (pair_eq (w_eq W)) s x)) s ps) \/
  (exists e, columns_add W s a k = (s, Err e)) \/ (exists s', columns_add W s a k = (s', Ok tt)).
Proof.
  intros W s a k K. unfold columns_add. destruct (alias_contract W a k K) as [[ps [Ap ->]]|[-> _]]; [left|right; left; eauto].
  exists ps. split; [exact Ap|]. apply (foldE_batches _ (fun s c v => commit s (do x <- mk_column c v; append_unique (pair_eq (w_eq W)) s x))).
Qed.
Definition order_one (W : world) (st : list (val * sortd)) (c sort : val) : res (list (val * sortd)) :=
  do o <- order_update W st c sort;
  match o with
  | Some st' => Ok st'
  | None => if negb (check_type [TStr; TInt] c) then Err EInvalidArgument else do s <- mk_sort (w_env W) sort; Ok (st ++ [(c, s)])
  end.
Lemma orders_items : forall W s a k, keys_ok a k ->
  (exists ps, alias_args a k ps /\ orders_add W s a k = foldE (fun s p => commit s (order_one W s (fst p) (snd p))) s ps) \/
  (exists e, orders_add W s a k = (s, Err e)) \/ (exists s', orders_add W s a k = (s', Ok tt)).
Proof.
  intros W s a k K. unfold orders_add. destruct (alias_contract W a k K) as [[ps [Ap ->]]|[-> _]]; [left|right; left; eauto].
  exists ps. split; [exact Ap|]. apply (foldE_batches _ (fun s c v => commit s (order_one W s c v))).
Qed.
Lemma tables_items : forall W s a k, keys_ok (filter truthy a) k ->
  (exists ps, alias_args (filter truthy a) k ps /\ tables_set W s a k = foldE (fun s p => commit s (do x <- mk_table (fst p) (snd p);
                         append_unique (table_eq (w_eq W)) s (MkTable (fst x) (snd x) []))) s ps) \/
  (exists e, tables_set W s a k = (s, Err e)) \/ (exists s', tables_set W s a k = (s', Ok tt)).
Proof.
  intros W s a k K. unfold tables_set. destruct (alias_contract W _ k K) as [[ps [Ap ->]]|[-> _]]; [left|right; left; eauto].
  exists ps. split; [exact Ap|]. apply (foldE_batches _ (fun s c v => commit s (do x <- mk_table c v; append_unique (table_eq (w_eq W)) s (MkTable (fst x) (snd x) [])))).
Qed.
Lemma conds_sql : forall v, is_conds v = true -> is_sql v = true.
Proof. intros v; destruct v; try discriminate; reflexivity. Qed.
Lemma where_items : forall W c s a k, keys_ok a k -> not_only_Q a ->
  (exists ps, pair_args a k ps /\ conds_where W c s a k = foldE (fun s p => commit s (do x <- mk_condition c (fst p) (snd p); append_unique (w_eq W) s x)) s ps) \/
  (exists e, conds_where W c s a k = (s, Err e)) \/ (exists s', conds_where W c s a k = (s', Ok tt)).
Proof.
  intros W c s a k K D.
  assert (One : (exists x, a = [x] /\ k = [] /\ is_sql x = true) \/ forall x, a = [x] -> k = [] -> is_sql x = false).
  { destruct a as [|x [|y a]]; [right; discriminate| |right; discriminate]. destruct k; [|right; discriminate].
    destruct (is_sql x) eqn:S; [left; eauto|right; intros y Q _; now injection Q as <-]. }
  destruct One as [[x [-> [-> S]]]|One]; [right; right; exists (s ++ [x]); unfold conds_where; now rewrite S|].
  assert (N : conds_where W c s a k = match parse_args W pair_opts a k with
                    | Err e => (s, Err e)
                    | Ok items => foldE (fun s it => let (c0, v) := nth2 it in commit s (do x <- mk_condition c c0 v; append_unique (w_eq W) s x)) s items
                    end).
  { unfold conds_where. destruct D as [->|[x [I X]]]; [destruct k; reflexivity|].
    assert (F : forallb is_conds a = false).
    { apply not_true_is_false. intros F. rewrite forallb_forall in F. specialize (F x I). congruence. }
    rewrite F, andb_false_r. destruct a as [|y [|z a]]; try reflexivity. destruct k; [|reflexivity].
    rewrite (One y eq_refl eq_refl). reflexivity. }
  rewrite N. destruct (pair_contract W a k K) as [[ps [Ap ->]]|[-> _]]; [left|right; left; eauto].
  exists ps. split; [exact Ap|]. apply (foldE_batches _ (fun s c0 v => commit s (do x <- mk_condition c c0 v; append_unique (w_eq W) s x))).
Qed.
Lemma values_items : forall W s a k, keys_ok a k ->
  (exists ps, pair_args a k ps /\ values_set W s a k = foldE (fun s p => commit s (do x <- mk_value (fst p) (snd p); append_unique (w_eq W) s x)) s ps) \/
  (exists e, values_set W s a k = (s, Err e)) \/ (exists s', values_set W s a k = (s', Ok tt)).
Proof.
  intros W s a k K.
  assert (One : (exists x, a = [x] /\ k = [] /\ is_sql x = true) \/ forall x, a = [x] -> k = [] -> is_sql x = false).
  { destruct a as [|x [|y a]]; [right; discriminate| |right; discriminate]. destruct k; [|right; discriminate].
    destruct (is_sql x) eqn:S; [left; eauto|right; intros y Q _; now injection Q as <-]. }
  destruct One as [[x [-> [-> S]]]|One]; [right; right; exists (s ++ [x]); unfold values_set; now rewrite S|].
  assert (N : values_set W s a k = match parse_args W pair_opts a k with
                    | Err e => (s, Err e)
                    | Ok items => foldE (fun s it => let (c0, v) := nth2 it in commit s (do x <- mk_value c0 v; append_unique (w_eq W) s x)) s items
                    end).
  { unfold values_set. destruct a as [|y [|z a]]; try reflexivity. destruct k; [|reflexivity]. rewrite (One y eq_refl eq_refl). reflexivity. }
  rewrite N. destruct (pair_contract W a k K) as [[ps [Ap ->]]|[-> _]]; [left|right; left; eauto].
  exists ps. split; [exact Ap|]. apply (foldE_batches _ (fun s c0 v => commit s (do x <- mk_value c0 v; append_unique (w_eq W) s x))).
Qed.
(** The calls with one item. *)
Lemma commit_fold : forall S A (f : S -> A -> res S) s x, foldE (fun s x => commit s (f s x)) s [x] = commit s (f s x).
Proof. intros S A f s x. cbn [foldE]. destruct (f s x); reflexivity. Qed.
Lemma columns_alone : forall W s p, columns_add W s [VSeq KTuple [fst p; snd p]] [] = commit s (do x <- mk_column (fst p) (snd p); append_unique (pair_eq (w_eq W)) s x).
Proof. intros W s [c v]. unfold columns_add. cbn. unfold commit. destruct (bind _ _); reflexivity. Qed.
Lemma orders_alone : forall W s p, orders_add W s [VSeq KTuple [fst p; snd p]] [] = commit s (order_one W s (fst p) (snd p)).
Proof. intros W s [c v]. unfold orders_add, order_one. cbn. unfold commit. destruct (bind _ _); reflexivity. Qed.
Lemma tables_alone : forall W s p, tables_set W s [VSeq KTuple [fst p; snd p]] [] = commit s (do x <- mk_table (fst p) (snd p);
                         append_unique (table_eq (w_eq W)) s (MkTable (fst x) (snd x) [])).
Proof. intros W s [c v]. unfold tables_set. cbn. unfold commit. destruct (bind _ _); reflexivity. Qed.
Lemma where_alone : forall W c s p, conds_where W c s (pair_alone p) [] = commit s (do x <- mk_condition c (fst p) (snd p); append_unique (w_eq W) s x).
Proof. intros W c s [c0 v]. unfold conds_where, pair_alone. cbn [is_sql]. cbn -[mk_condition]. unfold commit. destruct (bind _ _); reflexivity. Qed.
Lemma values_alone : forall W s p, values_set W s (pair_alone p) [] = commit s (do x <- mk_value (fst p) (snd p); append_unique (w_eq W) s x).
Proof. intros W s [c0 v]. unfold values_set, pair_alone. cbn [is_sql]. cbn -[mk_value]. unfold commit. destruct (bind _ _); reflexivity. Qed.
Lemma split_last : forall A (l : list A), l = [] \/ exists l' x, l = l' ++ [x].
Proof. intros A l. destruct l as [|x l _] using rev_ind; eauto. Qed.
Lemma on_shape : forall ts, (forall W a k, tables_on W ts a k = (ts, Err EInvalidQuery)) \/
  exists ts0 n al js ty n' al' ons, ts = ts0 ++ [MkTable n al (js ++ [MkJoin ty n' al' ons])].
Proof.
  intros ts. destruct (split_last _ ts) as [->|[ts0 [[n al js] ->]]]; [left; reflexivity|].
  destruct (split_last _ js) as [->|[js0 [[ty n' al' ons] ->]]]; [|right; repeat eexists].
  left. intros W a k. unfold tables_on, on_last_table. rewrite upd_last_snoc. reflexivity.
Qed.
Lemma on_rebuilt : forall W ts n al js ty n' al' ons a k,
  tables_on W (ts ++ [MkTable n al (js ++ [MkJoin ty n' al' ons])]) a k =
  lift1 (fun ons => ts ++ [MkTable n al (js ++ [MkJoin ty n' al' ons])]) (conds_where W KOn ons a k).
Proof.
  intros. unfold tables_on, on_last_table. rewrite upd_last_snoc. unfold table_on. cbn [tb_joins tb_name tb_alias]. rewrite upd_last_snoc.
  cbn [j_ons j_type j_name j_alias]. destruct (conds_where W KOn ons a k); reflexivity.
Qed.
Ltac by_items H := destruct H as [[ps [AP EQ]]|[[err EQ]|[s2 EQ]]];
  [left; exists ps; split; [exact AP|rewrite EQ; reflexivity]|right; left; exists err; rewrite EQ; reflexivity|
   right; right; eexists; rewrite EQ; reflexivity].
Lemma lift_lift : forall S T Q (f : S -> T) (g : T -> Q) x, lift1 g (lift1 f x) = lift1 (fun s => g (f s)) x.
Proof. intros S T Q f g [s o]. reflexivity. Qed.
Lemma sel_items_failing : forall W op q q' e, with_items op -> sel_step W q op = (q', Err e) ->
  q' = q \/ exists pre p post, sel_items op (pre ++ p :: post) /\ sel_run W q (map (sel_alone op) pre) = (q', Ok tt) /\
                               sel_step W q' (sel_alone op p) = (q', Err e).
Proof.
  intros W op [so sc st sw sg sh sor sl sout sf] q' e K. unfold sel_run.
  destruct op as [a k|a k|t0 a0|ty arg|a k|a k|a k|a k|a k|l o|o|f v|o al|al]; try contradiction.
  - apply (failing_items (sel_step) W (fun s => MkSel so s st sw sg sh sor sl sout sf) (fun s c v => do x <- mk_column c v; append_unique (pair_eq (w_eq W)) s x) _ (sel_alone (SColumns a k))).
    + intros s p. cbn [sel_alone sel_step]. rewrite columns_alone. reflexivity.
    + cbn [sel_step sel_items s_cols]. by_items (columns_items W sc a k K).
  - apply (failing_items (sel_step) W (fun s => MkSel so sc s sw sg sh sor sl sout sf) (fun s c v => do x <- mk_table c v; append_unique (table_eq (w_eq W)) s (MkTable (fst x) (snd x) [])) _ (sel_alone (SFrom a k))).
    + intros s p. cbn [sel_alone sel_step]. rewrite tables_alone. reflexivity.
    + cbn [sel_step sel_items s_tabs]. by_items (tables_items W st a k K).
  - destruct (on_shape st) as [F|[ts0 [n [al [js [ty [n' [al' [ons ->]]]]]]]]].
    + cbn [sel_step s_tabs]. rewrite (F W a k). intros H. left. injection H as <- _. reflexivity.
    + apply (failing_items (sel_step) W (fun s => MkSel so sc (ts0 ++ [MkTable n al (js ++ [MkJoin ty n' al' s])]) sw sg sh sor sl sout sf) (fun s c v => do x <- mk_condition KOn c v; append_unique (w_eq W) s x) _ (sel_alone (SOn a k))).
      * intros s p. cbn [sel_alone sel_step s_tabs]. rewrite on_rebuilt, where_alone, lift_lift. reflexivity.
      * cbn [sel_step sel_items s_tabs]. rewrite on_rebuilt, lift_lift. by_items (where_items W KOn ons a k (proj1 K) (proj2 K)).
  - apply (failing_items (sel_step) W (fun s => MkSel so sc st s sg sh sor sl sout sf) (fun s c v => do x <- mk_condition KWhere c v; append_unique (w_eq W) s x) _ (sel_alone (SWhere a k))).
    + intros s p. cbn [sel_alone sel_step]. rewrite where_alone. reflexivity.
    + cbn [sel_step sel_items s_where]. by_items (where_items W KWhere sw a k (proj1 K) (proj2 K)).
  - apply (failing_items (sel_step) W (fun s => MkSel so sc st sw sg s sor sl sout sf) (fun s c v => do x <- mk_condition KWhere c v; append_unique (w_eq W) s x) _ (sel_alone (SHaving a k))).
    + intros s p. cbn [sel_alone sel_step]. rewrite where_alone. reflexivity.
    + cbn [sel_step sel_items s_having]. by_items (where_items W KWhere sh a k (proj1 K) (proj2 K)).
  - apply (failing_items (sel_step) W (fun s => MkSel so sc st sw s sh sor sl sout sf) (order_one W) _ (sel_alone (SGroupBy a k))).
    + intros s p. cbn [sel_alone sel_step]. rewrite orders_alone. reflexivity.
    + cbn [sel_step sel_items s_group]. by_items (orders_items W sg a k K).
  - apply (failing_items (sel_step) W (fun s => MkSel so sc st sw sg sh s sl sout sf) (order_one W) _ (sel_alone (SOrderBy a k))).
    + intros s p. cbn [sel_alone sel_step]. rewrite orders_alone. reflexivity.
    + cbn [sel_step sel_items s_order]. by_items (orders_items W sor a k K).
Qed.
Lemma upd_items_failing : forall W op q q' e, with_items_upd op -> upd_step W q op = (q', Err e) ->
  q' = q \/ exists pre p post, upd_items op (pre ++ p :: post) /\ upd_run W q (map (upd_alone op) pre) = (q', Ok tt) /\
                               upd_step W q' (upd_alone op p) = (q', Err e).
Proof.
  intros W op [ig ts vs wh al] q' e K. unfold upd_run. destruct op as [t|a k|a k|ty arg|a k| | |al0]; try contradiction.
  - apply (failing_items (upd_step) W (fun s => MkUpd ig s vs wh al) (fun s c v => do x <- mk_table c v; append_unique (table_eq (w_eq W)) s (MkTable (fst x) (snd x) [])) _ (upd_alone (UTable t))).
    + intros s p. cbn [upd_alone upd_step]. rewrite tables_alone. reflexivity.
    + cbn [upd_step upd_items]. by_items (tables_items W ts [t] [] K).
  - apply (failing_items (upd_step) W (fun s => MkUpd ig ts s wh al) (fun s c v => do x <- mk_value c v; append_unique (w_eq W) s x) _ (upd_alone (USet a k))).
    + intros s p. cbn [upd_alone upd_step]. rewrite values_alone. reflexivity.
    + cbn [upd_step upd_items]. by_items (values_items W vs a k K).
  - apply (failing_items (upd_step) W (fun s => MkUpd ig ts vs s al) (fun s c v => do x <- mk_condition KWhere c v; append_unique (w_eq W) s x) _ (upd_alone (UWhere a k))).
    + intros s p. cbn [upd_alone upd_step]. rewrite where_alone. reflexivity.
    + cbn [upd_step upd_items]. by_items (where_items W KWhere wh a k (proj1 K) (proj2 K)).
  - destruct (on_shape ts) as [F|[ts0 [n [al1 [js [ty [n' [al' [ons ->]]]]]]]]].
    + cbn [upd_step]. rewrite (F W a k). intros H. left. injection H as <- _. reflexivity.
    + apply (failing_items (upd_step) W (fun s => MkUpd ig (ts0 ++ [MkTable n al1 (js ++ [MkJoin ty n' al' s])]) vs wh al) (fun s c v => do x <- mk_condition KOn c v; append_unique (w_eq W) s x) _ (upd_alone (UOn a k))).
      * intros s p. cbn [upd_alone upd_step]. rewrite on_rebuilt, where_alone, lift_lift. reflexivity.
      * cbn [upd_step upd_items]. rewrite on_rebuilt, lift_lift. by_items (where_items W KOn ons a k (proj1 K) (proj2 K)).
Qed.
Lemma del_items_failing : forall W op q q' e, with_items_del op -> del_step W q op = (q', Err e) ->
  q' = q \/ exists pre p post, del_items op (pre ++ p :: post) /\ del_run W q (map (del_alone op) pre) = (q', Ok tt) /\
                               del_step W q' (del_alone op p) = (q', Err e).
Proof.
  intros W op [ig ts rs wh al] q' e K. unfold del_run. destruct op as [a|a k|t0 a0|a k|ty arg|a k| | |al0]; try contradiction.
  - apply (failing_items (del_step) W (fun s => MkDel ig s rs wh al) (fun s c v => do x <- mk_table c v; append_unique (table_eq (w_eq W)) s (MkTable (fst x) (snd x) [])) _ (del_alone (DDelete a))).
    + intros s p. cbn [del_alone del_step]. rewrite tables_alone. reflexivity.
    + cbn [del_step del_items]. by_items (tables_items W ts a [] K).
  - apply (failing_items (del_step) W (fun s => MkDel ig ts s wh al) (fun s c v => do x <- mk_table c v; append_unique (table_eq (w_eq W)) s (MkTable (fst x) (snd x) [])) _ (del_alone (DFrom a k))).
    + intros s p. cbn [del_alone del_step]. rewrite tables_alone. reflexivity.
    + cbn [del_step del_items]. by_items (tables_items W rs a k K).
  - apply (failing_items (del_step) W (fun s => MkDel ig ts rs s al) (fun s c v => do x <- mk_condition KWhere c v; append_unique (w_eq W) s x) _ (del_alone (DWhere a k))).
    + intros s p. cbn [del_alone del_step]. rewrite where_alone. reflexivity.
    + cbn [del_step del_items]. by_items (where_items W KWhere wh a k (proj1 K) (proj2 K)).
  - destruct (on_shape rs) as [F|[ts0 [n [al1 [js [ty [n' [al' [ons ->]]]]]]]]].
    + cbn [del_step]. rewrite (F W a k). intros H. left. injection H as <- _. reflexivity.
    + apply (failing_items (del_step) W (fun s => MkDel ig ts (ts0 ++ [MkTable n al1 (js ++ [MkJoin ty n' al' s])]) wh al) (fun s c v => do x <- mk_condition KOn c v; append_unique (w_eq W) s x) _ (del_alone (DOn a k))).
      * intros s p. cbn [del_alone del_step]. rewrite on_rebuilt, where_alone, lift_lift. reflexivity.
      * cbn [del_step del_items]. rewrite on_rebuilt, lift_lift. by_items (where_items W KOn ons a k (proj1 K) (proj2 K)).
Qed.

(** Calls with Q objects only. *)
Lemma Q_where : forall W c s a k, all_Q a -> (List.length a > 1)%nat \/ k <> [] ->
  conds_where W c s a k = foldE (fun s x => commit s (append_unique (w_eq W) s x)) s a.
Proof.
  intros W c s a k [N F] L. assert (FB : forallb is_conds a = true) by (apply forallb_forall; rewrite Forall_forall in F; exact F).
  unfold conds_where. rewrite FB. destruct a as [|x [|y a]]; [now destruct N| |reflexivity]. destruct k; [|reflexivity]. cbn in L. destruct L as [L|L]; [lia|now destruct L].
Qed.
Lemma Q_failing : forall W c s a k s' e, all_Q a -> conds_where W c s a k = (s', Err e) ->
  exists pre x post, a = pre ++ x :: post /\ (s' = s \/ conds_where W c s pre [] = (s', Ok tt)) /\ conds_where W c s' [x; x] [] = (s', Err e).
Proof.
  intros W c s a k s' e A H.
  assert (L : (List.length a > 1)%nat \/ k <> []).
  { destruct a as [|x [|y a]]; [now destruct A| |left; cbn; lia]. right. intros ->. unfold conds_where in H. destruct A as [_ F]. inversion F as [|? ? F1 _]; subst.
    rewrite (conds_sql _ F1) in H. discriminate H. }
  rewrite (Q_where W c s a k A L) in H. destruct (foldE_split _ _ _ _ _ _ _ H) as [pre [x [post [s0 [-> [P X]]]]]].
  pose proof X as Y. apply commit_err in Y. subst s0. destruct A as [_ F]. apply Forall_app in F. destruct F as [Fp Fx]. inversion Fx as [|? ? F1 _]; subst.
  exists pre, x, post. split; [reflexivity|]. split.
  - destruct pre as [|y [|z pre]].
    + left. now injection P as <-.
    + cbn [foldE] in P. unfold append_unique, bind in P. inversion Fp as [|? ? Fy _]; subst. destruct (anyM _ s) as [[]|]; cbn [commit foldE] in P; [injection P as <-; now left|injection P as <-; right|discriminate P].
      unfold conds_where. now rewrite (conds_sql _ Fy).
    + right. rewrite Q_where; [exact P|split; [discriminate|exact Fp]|left; cbn; lia].
  - rewrite Q_where; [|split; [discriminate|constructor; [exact F1|constructor; [exact F1|constructor]]]|left; cbn; lia]. cbn [foldE]. now rewrite X.
Qed.
Lemma sel_Q_failing : forall W op a w q q' e, only_Q_sel op a w -> all_Q a -> sel_step W q op = (q', Err e) ->
  q' = q \/ exists pre x post, a = pre ++ x :: post /\ (q' = q \/ sel_step W q (w pre) = (q', Ok tt)) /\ sel_step W q' (w [x; x]) = (q', Err e).
Proof.
  intros W op a w [so sc st sw sg sh sor sl sout sf] q' e O A.
  destruct O as [[k [-> ->]]|[[k [-> ->]]|[k [-> ->]]]]; cbn [sel_step s_where s_having s_tabs].
  - unfold lift1 at 1. destruct (conds_where W KWhere sw a k) as [s' o] eqn:C. cbn [fst snd]. intros H. injection H as <- ->. right.
    destruct (Q_failing _ _ _ _ _ _ _ A C) as [pre [x [post [-> [S X]]]]]. exists pre, x, post. split; [reflexivity|].
    cbn [sel_step s_where with_where]. rewrite X. split; [|reflexivity]. destruct S as [->|S]; [now left|right; now rewrite S].
  - unfold lift1 at 1. destruct (conds_where W KWhere sh a k) as [s' o] eqn:C. cbn [fst snd]. intros H. injection H as <- ->. right.
    destruct (Q_failing _ _ _ _ _ _ _ A C) as [pre [x [post [-> [S X]]]]]. exists pre, x, post. split; [reflexivity|].
    cbn [sel_step s_having with_having]. rewrite X. split; [|reflexivity]. destruct S as [->|S]; [now left|right; now rewrite S].
  - destruct (on_shape st) as [F|[ts0 [n [al [js [ty [n' [al' [ons ->]]]]]]]]].
    { rewrite (F W a k). intros H. left. injection H as <- _. reflexivity. }
    rewrite on_rebuilt, lift_lift. unfold lift1 at 1. destruct (conds_where W KOn ons a k) as [s' o] eqn:C. cbn [fst snd]. intros H. injection H as <- ->. right.
    destruct (Q_failing _ _ _ _ _ _ _ A C) as [pre [x [post [-> [S X]]]]]. exists pre, x, post. split; [reflexivity|].
    cbn [sel_step s_tabs with_tabs]. rewrite !on_rebuilt, !lift_lift, X. split; [|reflexivity]. destruct S as [->|S]; [now left|right; now rewrite S].
Qed.
Lemma upd_Q_failing : forall W op a w q q' e, only_Q_upd op a w -> all_Q a -> upd_step W q op = (q', Err e) ->
  q' = q \/ exists pre x post, a = pre ++ x :: post /\ (q' = q \/ upd_step W q (w pre) = (q', Ok tt)) /\ upd_step W q' (w [x; x]) = (q', Err e).
Proof.
  intros W op a w [ig ts vs wh al] q' e O A.
  destruct O as [[k [-> ->]]|[k [-> ->]]]; cbn [upd_step].
  - unfold lift1 at 1. destruct (conds_where W KWhere wh a k) as [s' o] eqn:C. cbn [fst snd]. intros H. injection H as <- ->. right.
    destruct (Q_failing _ _ _ _ _ _ _ A C) as [pre [x [post [-> [S X]]]]]. exists pre, x, post. split; [reflexivity|].
    cbn [upd_step]. rewrite X. split; [|reflexivity]. destruct S as [->|S]; [now left|right; now rewrite S].
  - destruct (on_shape ts) as [F|[ts0 [n [al1 [js [ty [n' [al' [ons ->]]]]]]]]].
    { rewrite (F W a k). intros H. left. injection H as <- _. reflexivity. }
    rewrite on_rebuilt, lift_lift. unfold lift1 at 1. destruct (conds_where W KOn ons a k) as [s' o] eqn:C. cbn [fst snd]. intros H. injection H as <- ->. right.
    destruct (Q_failing _ _ _ _ _ _ _ A C) as [pre [x [post [-> [S X]]]]]. exists pre, x, post. split; [reflexivity|].
    cbn [upd_step]. rewrite !on_rebuilt, !lift_lift, X. split; [|reflexivity]. destruct S as [->|S]; [now left|right; now rewrite S].
Qed.
Lemma del_Q_failing : forall W op a w q q' e, only_Q_del op a w -> all_Q a -> del_step W q op = (q', Err e) ->
  q' = q \/ exists pre x post, a = pre ++ x :: post /\ (q' = q \/ del_step W q (w pre) = (q', Ok tt)) /\ del_step W q' (w [x; x]) = (q', Err e).
Proof.
  intros W op a w [ig ts rs wh al] q' e O A.
  destruct O as [[k [-> ->]]|[k [-> ->]]]; cbn [del_step].
  - unfold lift1 at 1. destruct (conds_where W KWhere wh a k) as [s' o] eqn:C. cbn [fst snd]. intros H. injection H as <- ->. right.
    destruct (Q_failing _ _ _ _ _ _ _ A C) as [pre [x [post [-> [S X]]]]]. exists pre, x, post. split; [reflexivity|].
    cbn [del_step]. rewrite X. split; [|reflexivity]. destruct S as [->|S]; [now left|right; now rewrite S].
  - destruct (on_shape rs) as [F|[ts0 [n [al1 [js [ty [n' [al' [ons ->]]]]]]]]].
    { rewrite (F W a k). intros H. left. injection H as <- _. reflexivity. }
    rewrite on_rebuilt, lift_lift. unfold lift1 at 1. destruct (conds_where W KOn ons a k) as [s' o] eqn:C. cbn [fst snd]. intros H. injection H as <- ->. right.
    destruct (Q_failing _ _ _ _ _ _ _ A C) as [pre [x [post [-> [S X]]]]]. exists pre, x, post. split; [reflexivity|].
    cbn [del_step]. rewrite !on_rebuilt, !lift_lift, X. split; [|reflexivity]. destruct S as [->|S]; [now left|right; now rewrite S].
Qed.
(** into with several tables; on_duplicate_key_update with several items. *)
Lemma into_failing : forall W q q' t e, keys_ok (filter truthy [t]) [] -> ins_step W q (IInto t) = (q', Err e) ->
  q' = q \/ exists pre p post, alias_args (filter truthy [t]) [] (pre ++ p :: post) /\ ins_run W q (map into_alone pre) = (q', Ok tt) /\
                               ins_step W q' (into_alone p) = (q', Err e).
Proof.
  intros W [rp ig tabs rows dup cf upd] q' t e K. unfold ins_run.
  apply (failing_items ins_step W (fun s => MkIns rp ig s rows dup cf upd) (fun s c v => do x <- mk_table c v; append_unique (table_eq (w_eq W)) s (MkTable (fst x) (snd x) [])) _ into_alone).
  - intros s p. unfold into_alone. cbn [ins_step]. rewrite tables_alone. reflexivity.
  - cbn [ins_step]. by_items (tables_items W tabs [t] [] K).
Qed.
Lemma dup_failing : forall W q q' a k e, e_be (w_env W) = BMySql -> keys_ok a k -> ins_step W q (IOnDup a k) = (q', Err e) ->
  q' = q \/ exists pre p post, pair_args a k (pre ++ p :: post) /\ ins_run W q (map dup_alone pre) = (q', Ok tt) /\
                               ins_step W q' (dup_alone p) = (q', Err e).
Proof.
  intros W [rp ig tabs rows dup cf upd] q' a k e B K. unfold ins_run.
  assert (G : forall d a k, ins_step W (MkIns rp ig tabs rows d cf upd) (IOnDup a k) = lift1 (fun s => MkIns rp ig tabs rows s cf upd) (values_set W d a k)).
  { intros d a0 k0. cbn [ins_step]. rewrite B. cbn. unfold lift1. destruct (values_set W d a0 k0) as [d' [[]|e0]]; reflexivity. }
  apply (failing_items ins_step W (fun s => MkIns rp ig tabs rows s cf upd) (fun s c v => do x <- mk_value c v; append_unique (w_eq W) s x) (IOnDup a k) dup_alone).
  - intros s p. unfold dup_alone. rewrite G, values_alone. reflexivity.
  - rewrite G. by_items (values_items W dup a k K).
Qed.
Lemma conflict_failing : forall W q q' s a k e, e_be (w_env W) = BPostgres -> keys_ok a k -> ins_step W q (IOnDup (VStr s :: a) k) = (q', Err e) ->
  exists q0, ins_step W q (IOnDup [VStr s] []) = (q0, Ok tt) /\
    (q' = q0 \/ exists pre p post, pair_args a k (pre ++ p :: post) /\ ins_run W q0 (map (conflict_alone s) pre) = (q', Ok tt) /\
                                  ins_step W q' (conflict_alone s p) = (q', Err e)).
Proof.
  intros W [rp ig tabs rows dup cf upd] q' s a k e B K. unfold ins_run.
  assert (G : forall c u a k, ins_step W (MkIns rp ig tabs rows dup c u) (IOnDup (VStr s :: a) k) = lift1 (fun x => MkIns rp ig tabs rows dup (Some s) x) (values_set W u a k)).
  { intros c u a0 k0. cbn [ins_step]. rewrite B. cbn. unfold lift1. destruct (values_set W u a0 k0) as [d' [[]|e0]]; reflexivity. }
  intros H. exists (MkIns rp ig tabs rows dup (Some s) upd). split; [rewrite G; reflexivity|].
  assert (H' : ins_step W (MkIns rp ig tabs rows dup (Some s) upd) (IOnDup (VStr s :: a) k) = (q', Err e)) by (rewrite <- H, !G; reflexivity).
  revert H'. apply (failing_items ins_step W (fun x => MkIns rp ig tabs rows dup (Some s) x) (fun s c v => do x <- mk_value c v; append_unique (w_eq W) s x) (IOnDup (VStr s :: a) k) (conflict_alone s)).
  - intros u p. unfold conflict_alone. rewrite G, values_alone. reflexivity.
  - rewrite G. by_items (values_items W upd a k K).
Qed.

(** ** C44 *)
Definition only (P : exn -> Prop) {A} (x : res A) : Prop := forall e, x = Err e -> P e.
Definition only2 (P : exn -> Prop) {A B} (f : A -> B -> res bool) : Prop := forall x y, only P (f x y).
Section Tot.
Context (P : exn -> Prop).
Notation tot := (only P).
Notation tot2 := (only2 P).
Lemma tot_ok : forall A (b : A), tot (Ok b). Proof. intros A b e Q. discriminate. Qed.
Lemma tot_rand : forall x y, tot x -> tot y -> tot (rand x y).
Proof. intros [[]|e] y X Y; [exact Y|apply tot_ok|exact X]. Qed.
Lemma tot_ror : forall x y, tot x -> tot y -> tot (ror x y).
Proof. intros [[]|e] y X Y; [apply tot_ok|exact Y|exact X]. Qed.
Lemma tot_all2 : forall A B (f : A -> B -> res bool), tot2 f -> tot2 (all2 f).
Proof.
  intros A B f T. intros l. induction l as [|x l IH]; intros [|y m]; try apply tot_ok. cbn [all2]. apply tot_rand; [apply T|apply IH].
Qed.
Lemma tot_list : forall A B (f : A -> B -> res bool), tot2 f -> tot2 (list_eq f).
Proof. intros A B f T l m. unfold list_eq. destruct (Nat.eqb _ _); [apply tot_all2, T|apply tot_ok]. Qed.
Lemma tot_anyM : forall A (f : A -> res bool) l, (forall x, tot (f x)) -> tot (anyM f l).
Proof.
  intros A f l T. induction l as [|x l IH]; [apply tot_ok|]. cbn [anyM]. specialize (T x). destruct (f x) as [[]|e]; [apply tot_ok|exact IH|exact T].
Qed.
Lemma tot_allM : forall A (f : A -> res bool) l, (forall x, tot (f x)) -> tot (allM f l).
Proof.
  intros A f l T. induction l as [|x l IH]; [apply tot_ok|]. cbn [allM]. specialize (T x). destruct (f x) as [[]|e]; [exact IH|apply tot_ok|exact T].
Qed.
Lemma tot_opt : forall A B (f : A -> B -> res bool), tot2 f -> tot2 (opt_eq f).
Proof. intros A B f T [x|] [y|]; try apply tot_ok. apply T. Qed.
Lemma tot_pair : forall A B (f : A -> B -> res bool), tot2 f -> tot2 (pair_eq f).
Proof. intros A B f T [x y] [z w]. apply tot_rand; apply T. Qed.
Lemma tot_ord : forall A B (f : A -> B -> res bool), tot2 f -> tot2 (ord_eq f).
Proof. intros A B f T [x y] [z w]. apply tot_rand; [apply T|apply tot_ok]. Qed.
Lemma tot_join : forall A B (f : A -> B -> res bool), tot2 f -> tot2 (join_eq f).
Proof. intros A B f T [t n a o] [t' n' a' o']. cbn [join_eq]. repeat apply tot_rand; try apply T; [apply tot_ok|apply tot_list, T]. Qed.
Lemma tot_table : forall A B (f : A -> B -> res bool), tot2 f -> tot2 (table_eq f).
Proof. intros A B f T [n a o] [n' a' o']. cbn [table_eq]. repeat apply tot_rand; try apply T. apply tot_list, tot_join, T. Qed.
Lemma tot_out : forall A B (f : A -> B -> res bool), tot2 f -> tot2 (out_eq f).
Proof. intros A B f T [a b c d] [a' b' c' d']. cbn [out_eq]. repeat apply tot_rand; apply tot_opt, T. Qed.
Lemma tot_queries : forall A B (f : A -> B -> res bool), tot2 f -> tot2 (sel_eq f) /\ tot2 (ins_eq f) /\ tot2 (upd_eq f) /\ tot2 (del_eq f).
Proof.
  intros A B f T. split; [|split; [|split]].
  - intros [] []. cbn [sel_eq].
    repeat apply tot_rand; try apply tot_ok; try (apply tot_list, T); try (apply tot_list, tot_ord, T);
      [apply tot_list, tot_pair, T|apply tot_out, T|apply tot_list, tot_table, T].
  - intros [] []. cbn [ins_eq].
    repeat apply tot_rand; try apply tot_ok; try (apply tot_list, T); [apply tot_list, tot_table, T|apply tot_list, tot_list, T].
  - intros [] []. cbn [upd_eq]. repeat apply tot_rand; try apply tot_ok; try (apply tot_list, T); apply tot_list, tot_table, T.
  - intros [] []. cbn [del_eq]. repeat apply tot_rand; try apply tot_ok; try (apply tot_list, T); apply tot_list, tot_table, T.
Qed.
(** If rendering never raises, comparing never does. *)
Lemma tot_pyeq : forall r, (forall v, tot (r v)) -> tot2 (pyeq r).
Proof.
  intros r R. assert (D : forall n a, (depth a < n)%nat -> forall b, tot (pyeq r a b)); [|intros a b; exact (D (S (depth a)) a (Nat.lt_succ_diag_r _) b)].
  induction n as [|n H]; [intros a L; lia|]. intros a L b.
  set (g := fun x y => if Nat.ltb (depth x) n then pyeq r x y else Ok false : res bool).
  assert (G : tot2 g) by (intros x y; unfold g; destruct (Nat.ltb (depth x) n) eqn:X; [apply H; now apply Nat.ltb_lt|apply tot_ok]).
  assert (IH : forall x y, In x (children a) -> pyeq r x y = g x y).
  { intros x y I. unfold g. apply children_depth in I. now rewrite (proj2 (Nat.ltb_lt _ _)) by lia. }
  clear H L.
  assert (TX : forall x y : val, tot (do x <- r x; do y <- r y; Ok (seqb x y))).
  { intros x y. specialize (R x) as Rx. specialize (R y) as Ry. destruct (r x) as [sx|e]; cbn [bind]; [destruct (r y) as [sy|e]; cbn [bind]; [apply tot_ok|]|]; intros e' Q; injection Q as <-; [now apply Ry|now apply Rx]. }
  assert (TS : forall (x : val) s, tot (do x <- r x; Ok (seqb x s))).
  { intros x s. specialize (R x) as Rx. destruct (r x) as [sx|e]; cbn [bind]; [apply tot_ok|]. intros e' Q; injection Q as <-; now apply Rx. }
  destruct a; cbn [pyeq textual_eq];
    try (destruct b; cbn [is_sql textual_eq as_num]; try apply tot_ok; try apply TX; apply TS).
  - destruct b; try apply tot_ok. cbn [children] in IH.
    rewrite (list_eq_ext (pyeq r) g l l0) by auto.
    destruct (seqk_eqb k k0); [apply tot_list, G|]. destruct (is_setk k && is_setk k0); [|apply tot_ok].
    destruct (Nat.eqb (Datatypes.length l) (Datatypes.length l0)); [|apply tot_ok].
    rewrite (allM_ext _ (fun x => anyM (fun y => g x y) l0)) by (intros x Hx; apply anyM_ext; auto).
    apply tot_allM. intros x. apply tot_anyM. intros y. apply G.
  - destruct b; try apply tot_ok. cbn [children] in IH.
    destruct (Nat.eqb (Datatypes.length l) (Datatypes.length l0)); [|apply tot_ok].
    rewrite (allM_ext _ (fun p => anyM (fun q => rand (g (fst p) (fst q)) (g (snd p) (snd q))) l0)).
    { apply tot_allM. intros x. apply tot_anyM. intros y. apply tot_rand; apply G. }
    intros [k v] Hx. apply anyM_ext. intros [k' v'] Hy. cbn [fst snd].
    rewrite (IH k k'), (IH v v'); try reflexivity; apply in_flat_map; eexists; split; eauto; simpl; auto.
  - destruct b; try apply tot_ok. rewrite (IH a b) by (simpl; auto). apply tot_rand; [apply tot_ok|apply G].
  - destruct b; destruct k; try apply tot_ok; destruct k0; try apply tot_ok.
    + rewrite (IH a1 b1), (IH a2 b2) by (simpl; auto). repeat apply tot_rand; try apply G; apply tot_ok.
    + rewrite (IH a1 b1), (IH a2 b2), (IH a2 b1), (IH a1 b2) by (simpl; auto).
      apply tot_ror; [repeat apply tot_rand; try apply G; apply tot_ok|].
      destruct a2; try apply tot_ok. repeat apply tot_rand; try apply G; apply tot_ok.
  - destruct b; try apply tot_ok. rewrite (IH a1 b1), (IH a2 b2) by (simpl; auto). repeat apply tot_rand; apply G.
  - destruct b; try apply tot_ok. rewrite (list_eq_ext (pyeq r) g) by auto. apply tot_list, G.
  - destruct b; try apply tot_ok. rewrite (sel_eq_ext (pyeq r) g) by (intros x y Hx _; exact (IH x y Hx)). apply (tot_queries _ _ g G).
  - destruct b; try apply tot_ok. rewrite (IH a1 b1), (IH a2 b2) by (simpl; auto). repeat apply tot_rand; try apply G; apply tot_ok.
  - destruct b; try apply tot_ok. rewrite (ins_eq_ext (pyeq r) g) by (intros x y Hx _; exact (IH x y Hx)). apply (tot_queries _ _ g G).
  - destruct b; try apply tot_ok. rewrite (upd_eq_ext (pyeq r) g) by (intros x y Hx _; exact (IH x y Hx)). apply (tot_queries _ _ g G).
  - destruct b; try apply tot_ok. rewrite (del_eq_ext (pyeq r) g) by (intros x y Hx _; exact (IH x y Hx)). apply (tot_queries _ _ g G).
Qed.
End Tot.
Notation only_arg := (only (fun e => e = EInvalidArgument)).
Notation tot := only_arg.
Notation tot2 := (only2 (fun e => e = EInvalidArgument)).

(** The world of the call, where rendering for comparisons never raises. *)
Definition calm (W : world) : world := MkWorld (w_env W) (pyeq (fun _ => Ok [])) (w_str W).
Lemma calm_tot : forall W, tot2 (w_eq (calm W)).
Proof. intros W. apply tot_pyeq. intros v. apply tot_ok. Qed.
Lemma calm_alike : forall E, alike (pure_world E) (calm (pure_world E)).
Proof. intros E. split; [intros x y Tx Ty; apply textless_pyeq; assumption|reflexivity]. Qed.
(** What the parts of a call raise: InvalidArgumentException, and what comparisons raise. *)
Class lets (P : exn -> Prop) : Prop := lets_arg : P EInvalidArgument.
#[global] Instance lets_only : lets (fun e => e = EInvalidArgument). Proof. reflexivity. Qed.
Section Only.
Context {P : exn -> Prop} {L : lets P}.
Local Notation only_arg := (only P).
Local Notation tot := (only P).
Local Notation tot2 := (only2 P).
Lemma only_ok : forall A (a : A), only_arg (Ok a). Proof. discriminate. Qed.
Lemma only_err : forall A, only_arg (@Err A EInvalidArgument). Proof. intros A e H. injection H as <-. exact L. Qed.
Lemma only_bind : forall A B (x : res A) (f : A -> res B), only_arg x -> (forall a, x = Ok a -> only_arg (f a)) -> only_arg (bind x f).
Proof. intros A B [a|e] f Hx Hf; [exact (Hf a eq_refl)|]. intros e' H. injection H as <-. apply Hx. reflexivity. Qed.
Lemma only_tot : forall A (x : res A), tot x -> only_arg x.
Proof. intros A x H. exact H. Qed.
Lemma only_commit : forall S (s : S) x, only_arg x -> only_arg (snd (commit s x)).
Proof. intros S s [a|e] H; [apply only_ok|]. intros e' Q. injection Q as <-. apply H. reflexivity. Qed.
Lemma only_fold : forall S A (f : S -> A -> S * outcome) l s, (forall s x, In x l -> only_arg (snd (f s x))) -> only_arg (snd (foldE f s l)).
Proof.
  intros S A f. induction l as [|x l IH]; intros s H; [apply only_ok|]. cbn [foldE].
  pose proof (H s x (or_introl eq_refl)) as Hx. destruct (f s x) as [s' [u|e]]; [|exact Hx]. apply IH. intros s0 y I. apply H. now right.
Qed.
Lemma only_append : forall A (eq : A -> A -> res bool) ps x, tot2 eq -> only_arg (append_unique eq ps x).
Proof. intros A eq ps x T. apply only_bind; [apply only_tot, tot_anyM; intros y; apply T|]. intros; apply only_ok. Qed.
Lemma only_cond : forall k c v, only_arg (mk_condition k c v).
Proof.
  intros k c v. unfold mk_condition. destruct (negb _); [apply only_err|]. destruct (negb _); [apply only_err|].
  assert (R : forall k v, only_arg (mk_rel k v) /\ forall x, mk_rel k v = Ok x -> exists k' v', x = VRel k' v').
  { intros k0 v0. unfold mk_rel. cbv zeta. destruct (check_type _ _); [|split; [apply only_err|discriminate]].
    split; [apply only_ok|]. intros x H. injection H as <-. eauto. }
  apply only_bind.
  - destruct v; try apply R. apply only_ok.
  - intros x Hx. assert (X : exists k' v', x = VRel k' v') by (destruct v; try (exact (proj2 (R _ _) x Hx)); injection Hx as <-; eauto).
    destruct X as [k' [v' ->]]. apply only_ok.
Qed.
Lemma only_where_read : forall W k ps a kw, tot2 (w_eq W) -> only_arg (parse_args W pair_opts a kw) -> only_arg (snd (conds_where W k ps a kw)).
Proof.
  intros W k ps a kw T K.
  assert (N : only_arg (snd (match parse_args W pair_opts a kw with
                    | Err e => (ps, Err e)
                    | Ok items =>
                        foldE (fun s it => let (c, v) := nth2 it in
                                 commit s (do x <- mk_condition k c v; append_unique (w_eq W) s x)) ps items
                    end))).
  { destruct (parse_args _ _ _ _) as [its|e0]; [clear K|intros e1 H1; injection H1 as <-; exact (K e0 eq_refl)].
    apply only_fold. intros s x _. destruct (nth2 x). apply only_commit, only_bind; [apply only_cond|]. intros; apply only_append, T. }
  assert (O : only_arg (snd (foldE (fun s x => commit s (append_unique (w_eq W) s x)) ps a))).
  { apply only_fold. intros s x _. apply only_commit, only_append, T. }
  unfold conds_where. destruct a as [|x [|y a]]; [destruct (_ && _); assumption| |destruct (_ && _); assumption].
  destruct kw; [|destruct (_ && _); assumption]. destruct (is_sql x); [apply only_ok|exact N].
Qed.
Lemma only_columns_read : forall W cs a kw, tot2 (w_eq W) -> only_arg (parse_args W alias_opts a kw) -> only_arg (snd (columns_add W cs a kw)).
Proof.
  intros W cs a kw T K. unfold columns_add. destruct (parse_args _ _ _ _) as [its|e0]; [clear K|intros e1 H1; injection H1 as <-; exact (K e0 eq_refl)].
  apply only_fold. intros s x _. destruct (nth2 x). apply only_commit, only_bind; [|intros; apply only_append, tot_pair, T].
  unfold mk_column. destruct (negb _); [apply only_err|]. destruct (negb _); [apply only_err|apply only_ok].
Qed.
Lemma only_tables_read : forall W ts a kw, tot2 (w_eq W) -> only_arg (parse_args W alias_opts (filter truthy a) kw) -> only_arg (snd (tables_set W ts a kw)).
Proof.
  intros W cs a kw T K. unfold tables_set. destruct (parse_args _ _ _ _) as [its|e0]; [clear K|intros e1 H1; injection H1 as <-; exact (K e0 eq_refl)].
  apply only_fold. intros s x _. destruct (nth2 x). apply only_commit, only_bind; [|intros; apply only_append, tot_table, T].
  unfold mk_table. destruct (negb _); [apply only_err|]. destruct (negb _); [apply only_err|apply only_ok].
Qed.
Lemma only_values_read : forall W ps a kw, tot2 (w_eq W) -> only_arg (parse_args W pair_opts a kw) -> only_arg (snd (values_set W ps a kw)).
Proof.
  intros W ps a kw T K.
  assert (N : only_arg (snd (match parse_args W pair_opts a kw with
                    | Err e => (ps, Err e)
                    | Ok items =>
                        foldE (fun s it => let (c, v) := nth2 it in
                                 commit s (do x <- mk_value c v; append_unique (w_eq W) s x)) ps items
                    end))).
  { destruct (parse_args _ _ _ _) as [its|e0]; [clear K|intros e1 H1; injection H1 as <-; exact (K e0 eq_refl)].
    apply only_fold. intros s x _. destruct (nth2 x). apply only_commit, only_bind; [|intros; apply only_append, T].
    unfold mk_value. destruct (negb _); [apply only_err|]. destruct (negb _); [apply only_err|apply only_ok]. }
  unfold values_set. destruct a as [|x [|y a]]; try exact N. destruct kw; [|exact N]. destruct (is_sql x); [apply only_ok|exact N].
Qed.
Lemma pair_only : forall W a kw, keys_ok a kw -> only_arg (parse_args W pair_opts a kw).
Proof. intros W a kw K. destruct (pair_contract W a kw K) as [[qs [_ ->]]|[-> _]]; [apply only_ok|apply only_err]. Qed.
Lemma alias_only : forall W a kw, keys_ok a kw -> only_arg (parse_args W alias_opts a kw).
Proof. intros W a kw K. destruct (alias_contract W a kw K) as [[qs [_ ->]]|[-> _]]; [apply only_ok|apply only_err]. Qed.
Lemma only_where : forall W k ps a kw, tot2 (w_eq W) -> keys_ok a kw -> only_arg (snd (conds_where W k ps a kw)).
Proof. intros W k ps a kw T K. apply only_where_read; [exact T|now apply pair_only]. Qed.
Lemma only_columns : forall W cs a kw, tot2 (w_eq W) -> keys_ok a kw -> only_arg (snd (columns_add W cs a kw)).
Proof. intros W cs a kw T K. apply only_columns_read; [exact T|now apply alias_only]. Qed.
Lemma only_tables : forall W ts a kw, tot2 (w_eq W) -> keys_ok (filter truthy a) kw -> only_arg (snd (tables_set W ts a kw)).
Proof. intros W ts a kw T K. apply only_tables_read; [exact T|now apply alias_only]. Qed.
Lemma only_values : forall W ps a kw, tot2 (w_eq W) -> keys_ok a kw -> only_arg (snd (values_set W ps a kw)).
Proof. intros W ps a kw T K. apply only_values_read; [exact T|now apply pair_only]. Qed.
Lemma only_sort : forall E v, is_sql v = false -> (forall n, v <> VInt n) -> only_arg (mk_sort E v).
Proof.
  intros E v Q N. unfold mk_sort, check_type. destruct (negb _) eqn:C; [apply only_err|].
  destruct v; try discriminate; cbn in C; try discriminate; try apply only_ok; try (exfalso; eapply N; reflexivity).
  - cbv zeta. destruct (seqb _ _); [apply only_ok|]. destruct (seqb _ _); [apply only_ok|apply only_err].
  - destruct k; discriminate.
Qed.
Lemma only_orders_read : forall W os a kw, tot2 (w_eq W) -> only_arg (parse_args W alias_opts a kw) ->
  (forall bs b, parse_args W alias_opts a kw = Ok bs -> In b bs -> only_arg (mk_sort (w_env W) (snd (nth2 b)))) -> only_arg (snd (orders_add W os a kw)).
Proof.
  intros W os a kw T K D. unfold orders_add. destruct (parse_args W alias_opts a kw) as [its|e0]; [|intros e1 H1; injection H1 as <-; exact (K e0 eq_refl)].
  apply only_fold. intros s x I. specialize (D its x eq_refl I). destruct (nth2 x) as [c v]. cbn [snd] in D. apply only_commit, only_bind.
  - induction s as [|[c' s'] s IH]; [apply only_ok|]. cbn [order_update]. pose proof (T c' c) as Tc. destruct (w_eq W c' c) as [[]|e].
    + apply only_bind; [exact D|]. intros; apply only_ok.
    + apply only_bind; [exact IH|]. intros; apply only_ok.
    + intros e' Q. injection Q as <-. now apply Tc.
  - intros [o|] _; [apply only_ok|]. destruct (negb _); [apply only_err|]. apply only_bind; [exact D|]. intros; apply only_ok.
Qed.
Lemma only_orders : forall W os a kw, tot2 (w_eq W) -> keys_ok a kw -> no_odd_direction a kw -> only_arg (snd (orders_add W os a kw)).
Proof.
  intros W os a kw T K D. apply only_orders_read; [exact T|now apply alias_only|]. intros bs b PA I.
  destruct (alias_contract W a kw K) as [[qs [A Q]]|[Q _]]; rewrite Q in PA; [|discriminate PA]. injection PA as <-.
  apply in_map_iff in I. destruct I as [p [<- I]]. cbn [nth2 snd]. destruct (D qs p A I). now apply only_sort.
Qed.
Lemma only_offset : forall l o, is_sql o = false -> only_arg (snd (set_offset l o)).
Proof.
  intros l o Q. unfold set_offset, check_type. destruct (negb _) eqn:C; [apply only_err|]. destruct (truthy o) eqn:TR; [|apply only_ok].
  destruct o; try discriminate; cbn in C; try discriminate; try apply only_ok;
    match goal with k0 : seqk |- _ => destruct k0; discriminate end.
Qed.
Lemma only_limit : forall l v o, is_sql v = false -> is_sql o = false -> only_arg (snd (set_limit l v o)).
Proof.
  intros l v o Q R. unfold set_limit, check_type. destruct (negb _) eqn:C; [apply only_err|].
  destruct v; try discriminate; cbn in C; try discriminate; [|match goal with k0 : seqk |- _ => destruct k0; discriminate end].
  cbn [py_int]. destruct (is_none o); [apply only_ok|]. apply only_offset, R.
Qed.
End Only.
Lemma upd_last_only : forall A (f : A -> A * outcome) (P : exn -> Prop), (forall x e, snd (f x) = Err e -> P e) -> forall l r e,
  upd_last f l = Some (r, Err e) -> P e.
Proof.
  intros A f P H. induction l as [|x l IH]; [discriminate|]. intros r e. cbn [upd_last]. destruct l as [|y l].
  - specialize (H x). destruct (f x) as [y o]. cbn [snd] in H. intros Q. injection Q as _ ->. apply H. reflexivity.
  - destruct (upd_last f (y :: l)) as [[r' b]|]; [|discriminate]. intros Q. injection Q as _ ->. eapply IH. reflexivity.
Qed.
Lemma invalid_join : forall E ty ts arg e, printable E arg -> snd (tables_join (pure_world E) ty ts arg) = Err e -> invalid e.
Proof.
  intros E ty ts arg e [t P].
  assert (G : forall f : table val -> table val * outcome, (forall x e, snd (f x) = Err e -> invalid e) -> snd (on_last_table f ts) = Err e -> invalid e).
  { intros f H. unfold on_last_table. destruct (upd_last f ts) as [[r o]|] eqn:U.
    - cbn [snd]. intros ->. exact (upd_last_only _ f invalid H ts r e U).
    - intros Q. injection Q as <-. now right. }
  assert (J : forall ty x e, snd (table_join (pure_world E) ty arg x) = Err e -> invalid e).
  { intros ty0 x e0. unfold table_join.
    assert (JT : only_arg (join_target (pure_world E) arg)).
    { assert (MT : forall n a, only_arg (mk_table n a)).
      { intros n a. unfold mk_table. destruct (negb _); [apply only_err|]. destruct (negb _); [apply only_err|apply only_ok]. }
      unfold join_target. cbn [w_str pure_world]. rewrite P.
      destruct arg as [| | | | |s| | | |k l|l| | | | | | | | | | | | | | | | | | | |]; try apply only_err; try apply MT.
      - destruct k; try apply only_err; destruct l as [|n [|a [|]]]; try apply only_err; apply MT.
      - destruct l as [|[n a] [|]]; try apply only_err; apply MT. }
    intros Q. left. revert Q. apply (only_commit (P := fun e => e = EInvalidArgument)), only_bind; [exact JT|]. intros; apply only_ok. }
  unfold tables_join. destruct ty; try (apply G; apply J).
  destruct (supports_full_join _); [apply G; apply J|]. intros Q. injection Q as <-. now right.
Qed.
Lemma lift_snd : forall S Q (f : S -> Q) x, snd (lift1 f x) = snd x.
Proof. intros S Q f [s o]. reflexivity. Qed.
Lemma invalid_only : forall A (x : res A) e, only_arg x -> x = Err e -> invalid e.
Proof. intros A x e H Q. left. exact (H e Q). Qed.
Lemma invalid_on : forall E ts a k e, Forall tlt ts -> textless_args a k -> keys_ok a k -> snd (tables_on (pure_world E) ts a k) = Err e -> invalid e.
Proof.
  intros E ts a k e T A K. destruct (on_shape ts) as [F|[ts0 [n [al [js [ty [n' [al' [ons ->]]]]]]]]].
  - rewrite F. intros Q. injection Q as <-. now right.
  - rewrite on_rebuilt, lift_snd. apply invalid_only.
    assert (To : TL ons).
    { apply Forall_app in T. destruct T as [_ T]. inversion T as [|? ? T1 _]; subst. unfold tlt, table_vals in T1. cbn [tb_joins] in T1.
      rewrite Forall_forall in *. intros x I. apply T1. right; right. apply in_flat_map. eexists. split; [apply in_or_app; right; left; reflexivity|].
      right; right; exact I. }
    rewrite (proj1 (where_alike _ _ KOn ons a k (calm_alike E) To A)). apply only_where; [apply calm_tot|exact K].
Qed.

Lemma join_tl : forall W ty ts arg, Forall tlt ts -> textless arg -> Forall tlt (fst (tables_join W ty ts arg)).
Proof.
  intros W ty ts arg F T. destruct ty; try (apply (join_alike W W); [discriminate|exact F|exact T]).
  unfold tables_join. destruct (supports_full_join _); [|exact F].
  apply (on_last_alike (table_join W JFull arg) (table_join W JFull arg)); [|exact F]. intros t Tt. split; [reflexivity|]. unfold table_join.
  destruct (join_target W arg) as [x|] eqn:J; [|exact Tt]. cbn [bind commit fst]. destruct (target_tl _ _ _ T J) as [Tn Ta].
  unfold tlt, table_vals in *. cbn [tb_name tb_alias tb_joins] in *. inversion Tt as [|? ? T1 Tt']; subst. inversion Tt' as [|? ? T2 Tt'']; subst.
  constructor; [exact T1|]. constructor; [exact T2|]. rewrite flat_map_app. apply Forall_app. split; [exact Tt''|]. tlc.
Qed.
Lemma alike_refl : forall W, alike W W. Proof. intros W. split; reflexivity. Qed.
Lemma data_sel_tl : forall W q op, tl_sel q -> data_sel op -> tl_sel (fst (sel_step W q op)).
Proof.
  intros W q op I T. destruct op; try exact (proj2 (sel_alike W W q _ (alike_refl W) I T)).
  destruct I as [I1 [I2 [I3 [I4 [I5 I6]]]]]. cbn [sel_step data_sel] in *. unfold lift1. cbn [fst].
  pose proof (join_tl W ty (s_tabs q) arg I2 T). repeat split; assumption.
Qed.
Definition tl_ins_all (q : insq val) : Prop := tl_ins q /\ TL (i_dup q) /\ TL (i_upd q).
Lemma data_ins_tl : forall W q op, tl_ins_all q -> data_ins op -> tl_ins_all (fst (ins_step W q op)).
Proof.
  intros W q op [I1 [I2 I3]] T.
  assert (K : forall op, textless_ins op -> tl_ins_all (fst (ins_step W q op))).
  { intros op0 T0. split; [exact (proj2 (ins_alike W W q _ (alike_refl W) I1 T0))|].
    destruct q as [rp ig tabs rows dup cf upd]. destruct op0; try contradiction; cbn [ins_step]; unfold lift1; cbn [fst i_dup i_upd]; split; assumption. }
  destruct op; try (apply K, T). clear K. cbn [data_ins] in T. destruct q as [rp ig tabs rows dup cf upd]. cbn [i_dup i_upd ins_step] in *.
  pose proof (proj2 (values_alike W W dup args kwds (alike_refl W) I2 T)) as D.
  assert (C : TL (snd (fst (conflict_set W (cf, upd) args kwds)))).
  { unfold conflict_set. destruct args as [|a rest]; [exact I3|]. destruct a; try exact I3. cbn [snd].
    assert (T' : textless_args rest kwds) by (destruct T as [T1 T2]; inversion T1; split; assumption).
    pose proof (proj2 (values_alike W W upd rest kwds (alike_refl W) I3 T')) as C. destruct (values_set W upd rest kwds). exact C. }
  destruct (supports_on_duplicate_key_update _).
  - destruct (values_set W dup args kwds) as [d [u|e]]; cbn [fst] in D; [|repeat split; assumption || apply I1].
    destruct (supports_on_conflict_do_update _).
    + destruct (conflict_set W (cf, upd) args kwds) as [[c p] [u'|e]]; cbn [fst snd] in C; [|repeat split; assumption || apply I1].
      destruct (supports_replace_into _); [destruct (_ || _)|]; repeat split; assumption || apply I1.
    + destruct (supports_replace_into _); [destruct (_ || _)|]; repeat split; assumption || apply I1.
  - destruct (supports_on_conflict_do_update _).
    + destruct (conflict_set W (cf, upd) args kwds) as [[c p] [u'|e]]; cbn [fst snd] in C; [|repeat split; assumption || apply I1].
      destruct (supports_replace_into _); [destruct (_ || _)|]; repeat split; assumption || apply I1.
    + destruct (supports_replace_into _); [destruct (_ || _)|]; repeat split; assumption || apply I1.
Qed.
Lemma program_keeps : forall Q Op (step : world -> Q -> Op -> Q * outcome) (I : Q -> Prop) (P : Op -> Prop),
  (forall W q op, I q -> P op -> I (fst (step W q op))) ->
  forall E H q, Forall P (map snd H) -> I q -> I (calls step q (program E H)).
Proof.
  intros Q Op step I P S E. induction H as [|[b op] H IH]; intros q F Iq; [exact Iq|].
  cbn [map snd] in F. inversion F as [|? ? Pop F']; subst. unfold calls in *. cbn [program map fold_left fst snd]. apply IH; [exact F'|]. apply S; assumption.
Qed.
Lemma sel_invalid : forall E q op q' e, tl_sel q -> data_sel op -> regular_sel E op -> sel_step (pure_world E) q op = (q', Err e) -> invalid e.
Proof.
  intros E q op q' e [I1 [I2 [I3 [I4 [I5 I6]]]]] T R H. apply (f_equal snd) in H. cbn [snd] in H. pose proof (calm_alike E) as C. pose proof (calm_tot (pure_world E)) as CT.
  destruct op; cbn [regular_sel data_sel textless_sel sel_step] in *; rewrite ?lift_snd in H; revert H.
  - rewrite (proj1 (columns_alike _ _ _ _ _ C I1 T)). apply invalid_only, only_columns; assumption.
  - rewrite (proj1 (tables_alike _ _ _ _ _ C I2 T)). apply invalid_only, only_tables; assumption.
  - destruct T as [Tt Ta]. assert (T2 : textless_args [VSeq KTuple [t; a]] []) by (apply one_arg, tl_seq; tlc).
    rewrite (proj1 (tables_alike _ _ _ _ _ C I2 T2)). apply invalid_only, only_tables; [assumption|]. split; [constructor|discriminate].
  - apply invalid_join, R.
  - apply invalid_on; assumption.
  - rewrite (proj1 (where_alike _ _ _ _ _ _ C I3 T)). apply invalid_only, only_where; assumption.
  - rewrite (proj1 (where_alike _ _ _ _ _ _ C I5 T)). apply invalid_only, only_where; assumption.
  - rewrite (proj1 (orders_alike _ _ _ _ _ C I4 T)). apply invalid_only, only_orders; [assumption|apply R|apply R].
  - rewrite (proj1 (orders_alike _ _ _ _ _ C I6 T)). apply invalid_only, only_orders; [assumption|apply R|apply R].
  - apply invalid_only, only_limit; apply R.
  - apply invalid_only, only_offset; apply R.
  - unfold set_out. destruct (negb _); [|discriminate]. intros H. injection H as <-. now left.
  - discriminate.
  - discriminate.
Qed.
Lemma keys_one : forall t, keys_ok [t] [] -> keys_ok (filter truthy [t]) [].
Proof. intros t [N K]. split; [constructor|]. intros items. cbn [filter]. destruct (truthy t); [|discriminate]. apply K. Qed.
Lemma upd_invalid : forall E q op q' e, tl_upd q -> textless_upd op -> regular_upd E op -> upd_step (pure_world E) q op = (q', Err e) -> invalid e.
Proof.
  intros E [ig tabs vals wh al] op q' e [I1 [I2 I3]] T R H. apply (f_equal snd) in H. cbn [snd] in H. pose proof (calm_alike E) as C. pose proof (calm_tot (pure_world E)) as CT.
  destruct op; cbn [regular_upd textless_upd upd_step u_tabs u_vals u_where] in *; rewrite ?lift_snd in H; try discriminate H; revert H.
  - rewrite (proj1 (tables_alike _ _ _ _ _ C I1 (one_arg _ T))). apply invalid_only, only_tables; [assumption|]. apply keys_one, R.
  - rewrite (proj1 (values_alike _ _ _ _ _ C I2 T)). apply invalid_only, only_values; assumption.
  - rewrite (proj1 (where_alike _ _ _ _ _ _ C I3 T)). apply invalid_only, only_where; assumption.
  - apply invalid_join, R.
  - apply invalid_on; assumption.
Qed.
Lemma del_invalid : forall E q op q' e, tl_del q -> textless_del op -> regular_del E op -> del_step (pure_world E) q op = (q', Err e) ->
  invalid e.
Proof.
  intros E [ig tabs refs wh al] op q' e [I1 [I2 I3]] T R H. apply (f_equal snd) in H. cbn [snd] in H. pose proof (calm_alike E) as C. pose proof (calm_tot (pure_world E)) as CT.
  destruct op; cbn [regular_del textless_del del_step d_tabs d_refs d_where] in *; rewrite ?lift_snd in H; try discriminate H; revert H.
  - assert (T2 : textless_args args []) by (split; [exact T|constructor]).
    rewrite (proj1 (tables_alike _ _ _ _ _ C I1 T2)). apply invalid_only, only_tables; assumption.
  - rewrite (proj1 (tables_alike _ _ _ _ _ C I2 T)). apply invalid_only, only_tables; assumption.
  - destruct T as [Tt Ta]. assert (T2 : textless_args [VSeq KTuple [t; a]] []) by (apply one_arg, tl_seq; tlc).
    rewrite (proj1 (tables_alike _ _ _ _ _ C I2 T2)). apply invalid_only, only_tables; [assumption|]. split; [constructor|discriminate].
  - rewrite (proj1 (where_alike _ _ _ _ _ _ C I3 T)). apply invalid_only, only_where; assumption.
  - apply invalid_join, R.
  - apply invalid_on; assumption.
Qed.
Lemma ins_invalid : forall E q op q' e, tl_ins_all q -> data_ins op -> regular_ins E op -> ins_step (pure_world E) q op = (q', Err e) ->
  invalid e.
Proof.
  intros E [rp ig tabs rows dup cf upd] op q' e [[I1 I2] [I3 I4]] T R H. apply (f_equal snd) in H. cbn [snd] in H. pose proof (calm_alike E) as C. pose proof (calm_tot (pure_world E)) as CT.
  destruct op; cbn [regular_ins data_ins textless_ins ins_step i_tabs i_rows i_dup i_upd] in *; rewrite ?lift_snd in H; try discriminate H.
  - revert H. rewrite (proj1 (tables_alike _ _ _ _ _ C I1 (one_arg _ T))). apply invalid_only, only_tables; [assumption|]. apply keys_one, R.
  - unfold rows_add in H. pose proof (proj1 (values_alike _ _ [] args kwds C (Forall_nil _) T)) as VE.
    pose proof (only_values _ [] args kwds CT R) as O. rewrite <- VE in O. destruct (values_set _ [] args kwds) as [ps [u|e0]]; [discriminate|].
    cbn [snd] in *. left. injection H as <-. apply O. reflexivity.
  - destruct (e_be E) eqn:B; cbn [pure_world w_env] in H; rewrite B in H; cbn in H.
    + discriminate H.
    + pose proof (proj1 (values_alike _ _ dup args kwds C I3 T)) as VE. pose proof (only_values _ dup args kwds CT R) as O. rewrite <- VE in O.
      destruct (values_set _ dup args kwds) as [ps [u|e0]]; [discriminate|]. cbn [snd] in *. left. injection H as <-. apply O. reflexivity.
    + unfold conflict_set in H. destruct args as [|a rest]; [injection H as <-; now right|]. cbn [List.tl] in R.
      destruct a; try (injection H as <-; now right). cbn [snd] in H.
      assert (T' : textless_args rest kwds) by (destruct T as [T1 T2]; inversion T1; split; assumption).
      pose proof (proj1 (values_alike _ _ upd rest kwds C I4 T')) as VE. pose proof (only_values _ upd rest kwds CT R) as O. rewrite <- VE in O.
      destruct (values_set _ upd rest kwds) as [ps [u|e0]]; [discriminate|]. cbn [snd] in *. left. injection H as <-. apply O. reflexivity.
    + destruct R as [-> ->]. discriminate H.
Qed.

Lemma limit_failing : forall W q q' l o e, sel_step W q (SLimit l o) = (q', Err e) ->
  q' = q \/ (sel_step W q (SLimit l VNone) = (q', Ok tt) /\ sel_step W q' (SOffset o) = (q', Err e)).
Proof.
  intros W [so sc st sw sg sh sor sl sout sf] q' l o e. cbn [sel_step s_limit]. unfold set_limit.
  destruct (negb (check_type [TNone; TInt] l)); [intros H; injection H as <- _; now left|].
  destruct (is_none l) eqn:N; [destruct l; try discriminate N; discriminate|].
  assert (X : forall (x : limits * outcome) y, match l with VNone => x | _ => y end = y) by (intros; destruct l; try reflexivity; discriminate N).
  rewrite !X. destruct (py_int l) as [z|e']; [|intros H; injection H as <- _; now left]. cbn [is_none].
  destruct (is_none o); [discriminate|]. intros H. right. unfold set_offset in *.
  destruct (negb (check_type [TNone; TInt] o)) eqn:C; [injection H as <- <-; cbn; split; reflexivity|].
  destruct (truthy o) eqn:TR; [|discriminate H]. destruct (py_int o) as [z'|e'] eqn:PI; [discriminate H|].
  cbn [lift1 fst snd with_limit] in H. injection H as <- <-. cbn. split; reflexivity.
Qed.
Lemma library_exceptions : forall E b,
  (forall H op q' e, Forall data_sel (map snd H) -> data_sel op -> regular_sel (with_be E b) op ->
     sel_step (pure_world (with_be E b)) (calls sel_step empty_select (program E H)) op = (q', Err e) -> invalid e) /\
  (forall H op q' e, Forall textless_upd (map snd H) -> textless_upd op -> regular_upd (with_be E b) op ->
     upd_step (pure_world (with_be E b)) (calls upd_step empty_update (program E H)) op = (q', Err e) -> invalid e) /\
  (forall H op q' e, Forall textless_del (map snd H) -> textless_del op -> regular_del (with_be E b) op ->
     del_step (pure_world (with_be E b)) (calls del_step empty_delete (program E H)) op = (q', Err e) -> invalid e) /\
  (forall H op q' e, Forall data_ins (map snd H) -> data_ins op -> regular_ins (with_be E b) op ->
     ins_step (pure_world (with_be E b)) (calls ins_step empty_insert (program E H)) op = (q', Err e) -> invalid e).
Proof.
  intros E b. split; [|split; [|split]]; intros H op q' e F T R Q.
  - refine (sel_invalid _ _ _ _ _ _ T R Q). apply (program_keeps _ _ sel_step tl_sel data_sel data_sel_tl); [exact F|]. repeat split; constructor.
  - refine (upd_invalid _ _ _ _ _ _ T R Q). apply (program_keeps _ _ upd_step tl_upd textless_upd); [|exact F|repeat split; constructor].
    intros W q op0 I T0. exact (proj2 (upd_alike W W q op0 (alike_refl W) I T0)).
  - refine (del_invalid _ _ _ _ _ _ T R Q). apply (program_keeps _ _ del_step tl_del textless_del); [|exact F|repeat split; constructor].
    intros W q op0 I T0. exact (proj2 (del_alike W W q op0 (alike_refl W) I T0)).
  - refine (ins_invalid _ _ _ _ _ _ T R Q). apply (program_keeps _ _ ins_step tl_ins_all data_ins data_ins_tl); [exact F|]. repeat split; constructor.
Qed.
