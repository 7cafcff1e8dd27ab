(** Lemmas: the functions of the module. *)
From Verif Require Import Base BaseFacts NumFmt Value Backend Eq Render RenderFacts ParseArgs Build Queries History Entries
  SpecRead SpecRef SpecArgs SpecHistory SpecClauses SpecFunctions SpecEntry SpecModule PfArgs PfDedupe PfClauses PfStatements PfFunctions RefFacts PfEntry.
Open Scope N_scope.

Definition made_of (k : aggk) (d : bool) (e : val) : val := fold_left agg_distinct (if d then [VBool true] else []) (mk_agg k e).
Lemma call_aggregate : forall n k d, In (n, k, d) aggregates -> forall W args kwds,
  call_module W n args kwds = with_expr (match k with FCount => Some VNone | _ => None end) args kwds (fun e => Ok (made_of k d e)).
Proof. intros n k d H W args kwds. cbn in H. repeat (destruct H as [H|H]; [injection H as <- <- <-; reflexivity|]). destruct H. Qed.
Lemma given_bound : forall k args kwds e, expr_given k args kwds e ->
  bind_params [(lit "expr", match k with FCount => Some VNone | _ => None end)] args kwds = Ok [e].
Proof. intros k args kwds e [x|x|H]; [reflexivity|reflexivity|subst k; reflexivity]. Qed.
Lemma keyword_in : forall n kwds v, keyword n kwds = Some v -> In (n, v) kwds.
Proof.
  unfold keyword. intros n kwds v H. destruct (find _ kwds) as [[m u]|] eqn:F; [|discriminate H]. injection H as <-.
  apply find_some in F. destruct F as [I Q]. apply seqb_eq in Q. cbn in *. now subst.
Qed.
Lemma others_nil : forall n kwds, NoDup (map fst kwds) -> other_keywords n kwds = [] -> kwds = [] \/ exists v, kwds = [(n, v)].
Proof.
  intros n [|[m v] kwds] N H; [left; reflexivity|right]. exists v. unfold other_keywords in H. cbn [filter fst] in H.
  destruct (seqb m n) eqn:Q; [|discriminate H]. apply seqb_eq in Q. subst m. cbn [negb] in H. f_equal.
  destruct kwds as [|[m w] kwds]; [reflexivity|]. cbn [filter fst] in H. destruct (seqb m n) eqn:Q; [|discriminate H]. apply seqb_eq in Q. subst m.
  inversion N as [|? ? X Y]; subst. exfalso. apply X. left. reflexivity.
Qed.
Lemma bound_given : forall k args kwds vs, NoDup (map fst kwds) ->
  bind_params [(lit "expr", match k with FCount => Some VNone | _ => None end)] args kwds = Ok vs -> exists e, vs = [e] /\ expr_given k args kwds e.
Proof.
  intros k [|a args] kwds vs N H; cbn [bind_params] in H.
  - assert (R : forall v, bind (match other_keywords (lit "expr") kwds with [] => Ok [] | _ :: _ => Err ETypeError end) (fun vs0 => Ok (v :: vs0)) = Ok vs ->
      vs = [v] /\ (kwds = [] \/ exists w, kwds = [(lit "expr", w)])).
    { intros v. destruct (other_keywords (lit "expr") kwds) eqn:O; cbn [bind]; [|discriminate]. intros Q. injection Q as <-. split; [reflexivity|now apply others_nil]. }
    destruct (keyword (lit "expr") kwds) as [v|] eqn:K.
    + apply R in H. destruct H as [-> [->|[w ->]]]; [discriminate K|]. exists v. split; [reflexivity|]. assert (w = v) by (injection K; auto). subst. constructor.
    + destruct k; try discriminate H. apply R in H. destruct H as [-> [->|[w ->]]]; [|discriminate K]. exists VNone. split; [reflexivity|now constructor].
  - destruct (keyword (lit "expr") kwds) as [v|] eqn:K; [discriminate H|]. destruct args as [|x args]; [|discriminate H].
    destruct kwds; [|discriminate H]. injection H as <-. exists a. split; [reflexivity|constructor].
Qed.
Lemma bind_type_error : forall ps args kwds x, bind_params ps args kwds = Err x -> x = ETypeError.
Proof.
  induction ps as [|[n d] ps IH]; intros args kwds x H; cbn [bind_params] in H.
  - destruct args; [destruct kwds|]; try discriminate H; now injection H.
  - destruct args as [|a args].
    + destruct (keyword n kwds) as [v|]; [|destruct d as [v|]; [|now injection H]];
        (destruct (bind_params ps [] (other_keywords n kwds)) eqn:B; cbn [bind] in H; [discriminate H|injection H as <-; eapply IH; exact B]).
    + destruct (keyword n kwds); [now injection H|]. destruct (bind_params ps args kwds) eqn:B; cbn [bind] in H; [discriminate H|injection H as <-; eapply IH; exact B].
Qed.
Lemma aggregate_called : forall n k d W args kwds e, In (n, k, d) aggregates -> expr_given k args kwds e ->
  exists f, call_module W n args kwds = Ok f /\
    forall E t, text E f = Ok t <-> exists a, aggregate_text E k e a /\ t = in_brackets (function_word k) (distinct_word d ++ a).
Proof.
  intros n k d W args kwds e I G. exists (made_of k d e). split.
  - rewrite (call_aggregate _ _ _ I). unfold with_expr. rewrite (given_bound _ _ _ _ G). reflexivity.
  - intros E t. unfold made_of. rewrite aggregate_ok. destruct d; reflexivity.
Qed.
Lemma aggregate_refused : forall n k d W args kwds, In (n, k, d) aggregates -> NoDup (map fst kwds) ->
  (forall e, ~ expr_given k args kwds e) -> call_module W n args kwds = Err ETypeError.
Proof.
  intros n k d W args kwds I N H. rewrite (call_aggregate _ _ _ I). unfold with_expr.
  destruct (bind_params _ args kwds) as [vs|x] eqn:B; cbn [bind].
  - destruct (bound_given _ _ _ _ N B) as [e [_ G]]. now destruct (H e).
  - now rewrite (bind_type_error _ _ _ _ B).
Qed.

Section Names.
Variable (E : env).
Lemma ref_name : forall n, one_part (e_be E) n -> sqlref E (text E) (VStr n) = Ok (in_quotes (e_be E) n).
Proof. intros n H. unfold sqlref. cbn [is_sql]. now rewrite quoted_name. Qed.
Lemma refs_names : forall ns, Forall (one_part (e_be E)) ns -> mapM (sqlref E (text E)) (map VStr ns) = Ok (map (in_quotes (e_be E)) ns).
Proof. intros ns F. induction F as [|n ns H F IH]; [reflexivity|]. cbn [map mapM]. rewrite ref_name by exact H. cbn [bind]. rewrite IH. reflexivity. Qed.
Lemma aggregate_names : forall n k d W ns s, In (n, k, d) aggregates -> ns <> [] -> Forall (one_part (e_be E)) ns ->
  s = VSeq KList (map VStr ns) \/ s = VSeq KTuple (map VStr ns) ->
  exists f, call_module W n [s] [] = Ok f /\ text E f = Ok (in_brackets (function_word k) (distinct_word d ++ names_text (e_be E) ns)).
Proof.
  intros n k d W ns s I NE F S. destruct (aggregate_called n k d W [s] [] s I (eg_position k s)) as [f [C T]]. exists f. split; [exact C|].
  apply T. exists (names_text (e_be E) ns). split; [|reflexivity]. apply ag_arg.
  - intros _. split; [|destruct S as [->| ->]; discriminate]. destruct ns as [|m ns]; [contradiction|]. destruct S as [->| ->]; reflexivity.
  - apply arguments_ok. unfold names_text. rewrite commas_join. destruct S as [->| ->]; cbn [expr_str]; rewrite refs_names by exact F; reflexivity.
Qed.
Lemma aggregate_name : forall n k d W c, In (n, k, d) aggregates -> one_part (e_be E) c ->
  exists f, call_module W n [VStr c] [] = Ok f /\ text E f = Ok (in_brackets (function_word k) (distinct_word d ++ in_quotes (e_be E) c)).
Proof.
  intros n k d W c I O. destruct (aggregate_called n k d W [VStr c] [] (VStr c) I (eg_position k _)) as [f [C T]]. exists f. split; [exact C|].
  apply T. exists (in_quotes (e_be E) c). split; [|reflexivity]. destruct O as (NE & ND & NQ & NS). apply ag_arg.
  - intros _. split; [destruct c; [contradiction|reflexivity]|]. intros X. injection X as ->. now apply NS.
  - apply arguments_ok. cbn [expr_str]. apply ref_name. repeat split; assumption.
Qed.
Lemma concat_names : forall ns, ns <> [] -> Forall (one_part (e_be E)) ns -> NoDup ns ->
  exists f g, call_module (pure_world E) (lit "concat") (map VStr ns) [] = Ok f /\ text E f = Ok (in_brackets (lit "CONCAT") (names_text (e_be E) ns)) /\
    call_module (pure_world E) (lit "group_concat") (map VStr ns) [] = Ok g /\ text E g = Ok (in_brackets (lit "GROUP_CONCAT") (names_text (e_be E) ns)).
Proof.
  intros ns NE F N.
  assert (A : call_module (pure_world E) (lit "concat") (map VStr ns) [] = mk_concat (pure_world E) (map VStr ns)) by reflexivity.
  assert (B : call_module (pure_world E) (lit "group_concat") (map VStr ns) [] = mk_group_concat (pure_world E) (map VStr ns)) by reflexivity.
  rewrite A, B. unfold mk_concat, mk_group_concat. rewrite (columns_names E) by exact N.
  eexists. eexists. split; [reflexivity|]. split; [|split; [reflexivity|]]; rewrite text_unfold; cbn [str_body]; rewrite (columns_texts E) by assumption;
    cbn [bind is_nilb negb part_ctx truthy]; [reflexivity|]. rewrite !app_nil_r. reflexivity.
Qed.
Lemma convert_called : forall W args kwds e ty, convert_given args kwds e ty -> call_module W (lit "convert") args kwds = mk_convert W e ty.
Proof. intros W args kwds e ty G. destruct G; reflexivity. Qed.
Lemma convert_name : forall args kwds c ty, convert_given args kwds (VStr c) (VStr ty) -> one_part (e_be E) c -> ty <> [] ->
  exists f, call_module (pure_world E) (lit "convert") args kwds = Ok f /\ text E f = Ok (in_brackets (lit "CONVERT") (in_quotes (e_be E) c ++ lit ", " ++ supper E ty)).
Proof.
  intros args kwds c ty G O NE. rewrite (convert_called _ _ _ _ _ G). unfold mk_convert.
  replace (truthy (VStr ty)) with true by (destruct ty; [contradiction|reflexivity]). eexists. split; [reflexivity|].
  rewrite text_unfold. cbn [str_body expr_str]. rewrite ref_name by exact O. reflexivity.
Qed.
Lemma shortcut_texts : forall s c, one_part (e_be E) c ->
  exists f g h, call_module (pure_world E) (lit "C") [VStr s] [] = Ok f /\ text E f = Ok s /\
    call_module (pure_world E) (lit "R") [VStr c] [] = Ok g /\ text E g = Ok (in_quotes (e_be E) c) /\
    call_module (pure_world E) (lit "C") [] [] = Ok h /\ text E h = Ok [].
Proof.
  intros s c O. exists (VCustom s), (VSqlR (VStr c)), (VCustom []). split; [reflexivity|]. split; [rewrite text_unfold; reflexivity|]. split; [reflexivity|].
  split; [rewrite text_R; now apply ref_name|]. split; [reflexivity|rewrite text_unfold; reflexivity].
Qed.
Lemma starts : forall ns, ns <> [] -> Forall (one_part (e_be E)) ns -> NoDup ns ->
  exists q f d r, call_module (pure_world E) (lit "select") (map VStr ns) [] = Ok (VSelect q) /\
      text E (VSelect q) = Ok (lit "SELECT " ++ names_text (e_be E) ns) /\
    call_module (pure_world E) (lit "select_from") (map VStr ns) [] = Ok (VSelect f) /\
      text E (VSelect f) = Ok (lit "SELECT * FROM " ++ names_text (e_be E) ns) /\
    call_module (pure_world E) (lit "delete_from") (map VStr ns) [] = Ok (VDelete d) /\
      text E (VDelete (fst (del_step (pure_world E) d DAllow))) = Ok (lit "DELETE FROM " ++ names_text (e_be E) ns) /\
    call_module (pure_world E) (lit "delete") (map VStr ns) [] = Ok (VDelete r) /\
      text E (VDelete (fst (del_run (pure_world E) r [DFrom (map VStr ns) []; DAllow]))) =
        Ok (lit "DELETE " ++ names_text (e_be E) ns ++ lit " FROM " ++ names_text (e_be E) ns).
Proof.
  intros ns NE F N.
  destruct (select_names E ns [] F N (Forall_nil _) (NoDup_nil _)) as [q [q' [A [B C]]]].
  assert (q' = q) as -> by (cbn in A; unfold mk_select in A; cbn in B; injection B as <-; destruct q; reflexivity).
  destruct (select_from_names E ns F N) as [f [A2 C2]].
  destruct (delete_from_names E ns NE F N) as [d [A3 [_ C3]]].
  destruct (delete_names E ns ns F N NE F N) as [r [r' [A4 [B4 [_ C4]]]]].
  exists q, f, d, r.
  assert (X1 : call_module (pure_world E) (lit "select") (map VStr ns) [] = map_ok VSelect (mk_select (pure_world E) (map VStr ns) [])) by reflexivity.
  assert (X2 : call_module (pure_world E) (lit "select_from") (map VStr ns) [] = map_ok VSelect (mk_select_from (pure_world E) (map VStr ns) [])) by reflexivity.
  assert (X3 : call_module (pure_world E) (lit "delete_from") (map VStr ns) [] = map_ok VDelete (mk_delete_from (pure_world E) (map VStr ns) [])) by reflexivity.
  assert (X4 : call_module (pure_world E) (lit "delete") (map VStr ns) [] = map_ok VDelete (mk_delete (pure_world E) (map VStr ns))) by reflexivity.
  split; [rewrite X1, A; reflexivity|]. split; [rewrite C, app_nil_r; destruct ns; [contradiction|reflexivity]|].
  split; [rewrite X2, A2; reflexivity|]. split; [rewrite C2; destruct ns; [contradiction|reflexivity]|].
  split; [rewrite X3, A3; reflexivity|]. split; [exact C3|].
  split; [rewrite X4, A4; reflexivity|].
  unfold del_run. cbn [foldE]. rewrite B4. cbn [foldE]. cbn [snd fst] in *.
  transitivity (text E (VDelete (fst (del_step (pure_world E) r' DAllow)))); [f_equal; f_equal; destruct r'; reflexivity|].
  rewrite C4. destruct ns; [contradiction|]. rewrite <- !app_assoc. reflexivity.
Qed.
Lemma starts_one : forall t c z x, one_part (e_be E) t -> one_part (e_be E) c -> text E (VSqlV (VInt z)) = Ok x ->
  exists q r, call_module (pure_world E) (lit "update") [VStr t] [] = Ok (VUpdate q) /\
      text E (VUpdate (fst (upd_run (pure_world E) q [USet [] [(c, VInt z)]; UAllow]))) =
        Ok (lit "UPDATE " ++ in_quotes (e_be E) t ++ lit " SET " ++ in_quotes (e_be E) c ++ lit " = " ++ x) /\
    call_module (pure_world E) (lit "insert_into") [VStr t] [] = Ok (VInsert r) /\
      text E (VInsert (fst (ins_run (pure_world E) r [IValues [] [(c, VInt z)]]))) =
        Ok (lit "INSERT INTO " ++ in_quotes (e_be E) t ++ lit " (" ++ in_quotes (e_be E) c ++ lit ") VALUES (" ++ x ++ lit ")").
Proof.
  intros t c z x T C X.
  destruct (update_names E t c z x T C X) as [q [q' [A [B [_ D]]]]].
  destruct (insert_names E t c z x T C X) as [r [r' [A2 [B2 D2]]]].
  exists q, r.
  assert (X1 : call_module (pure_world E) (lit "update") [VStr t] [] = map_ok VUpdate (mk_update (pure_world E) (VStr t))) by reflexivity.
  assert (X2 : call_module (pure_world E) (lit "insert_into") [VStr t] [] = map_ok VInsert (mk_insert_into (pure_world E) (VStr t))) by reflexivity.
  split; [rewrite X1, A; reflexivity|]. split.
  - unfold upd_run. cbn [foldE]. rewrite B. cbn [foldE].
    transitivity (text E (VUpdate (fst (upd_step (pure_world E) q' UAllow)))); [f_equal; f_equal; destruct q'; reflexivity|exact D].
  - split; [rewrite X2, A2; reflexivity|]. unfold ins_run. cbn [foldE]. rewrite B2. exact D2.
Qed.
End Names.
Lemma exists_called : forall W args kwds x, expr_given FAvg args kwds x ->
  exists f, call_module W (lit "exists") args kwds = Ok f /\ forall E t, text E f = Ok t <-> exists u, text E x = Ok u /\ t = in_brackets (lit "EXISTS") u.
Proof.
  intros W args kwds x G. exists (VExists x). split; [destruct G as [e|e|H]; [reflexivity|reflexivity|discriminate H]|].
  intros E t. rewrite text_unfold. cbn [str_body]. destruct (text E x) as [u|e]; cbn [bind].
  - split; [intros H; injection H as <-; exists u; split; reflexivity|]. intros [v [H ->]]. injection H as ->. reflexivity.
  - split; [discriminate|]. intros [v [H _]]. discriminate H.
Qed.
Lemma statements_called : forall W t,
  (forall args kwds, call_module W (lit "insert") args kwds = Err ETypeError <-> args <> [] \/ kwds <> []) /\
  (forall n, In n [lit "insert_into"; lit "update"] ->
    call_module W n [] [(lit "table", t)] = call_module W n [t] [] /\ call_module W n [] [] = Err ETypeError /\
    forall a b args kwds, call_module W n (a :: b :: args) kwds = Err ETypeError) /\
  (forall args p kwds, call_module W (lit "delete") args (p :: kwds) = Err ETypeError).
Proof.
  intros W t. split; [|split].
  - intros args kwds. assert (C : call_module W (lit "insert") args kwds = bind (bind_params [] args kwds) (fun _ => Ok (VInsert empty_insert))) by reflexivity.
    rewrite C. destruct args; [destruct kwds|]; cbn; (split; [intros H; try discriminate H|intros H; try reflexivity; exfalso; destruct H; congruence]);
      [right; discriminate|left; discriminate].
  - intros n I. assert (T : forall a b args kwds, bind_params [(lit "table", None)] (a :: b :: args) kwds = Err ETypeError)
      by (intros; cbn [bind_params]; destruct (keyword (lit "table") kwds); reflexivity).
    destruct I as [<-|[<-|[]]]; (split; [reflexivity|]; split; [reflexivity|]; intros a b args kwds).
    + assert (C : call_module W (lit "insert_into") (a :: b :: args) kwds = bind (bind_params [(lit "table", None)] (a :: b :: args) kwds)
        (fun vs => map_ok VInsert (mk_insert_into W (hd VNone vs)))) by reflexivity. rewrite C, T. reflexivity.
    + assert (C : call_module W (lit "update") (a :: b :: args) kwds = bind (bind_params [(lit "table", None)] (a :: b :: args) kwds)
        (fun vs => map_ok VUpdate (mk_update W (hd VNone vs)))) by reflexivity. rewrite C, T. reflexivity.
  - reflexivity.
Qed.

Lemma not_called : forall W args kwds,
  match call_module W (lit "Q") args kwds with
  | Ok f => exists g, call_module W (lit "Not") args kwds = Ok g /\ forall E t, text E g = Ok t <-> exists u, text E f = Ok u /\ t = in_brackets (lit "NOT") u
  | Err e => call_module W (lit "Not") args kwds = Err e
  end.
Proof.
  intros W args kwds.
  assert (A : call_module W (lit "Q") args kwds = mk_Q W args kwds) by reflexivity.
  assert (B : call_module W (lit "Not") args kwds = mk_Not W args kwds) by reflexivity.
  rewrite A, B. unfold mk_Q, mk_Not. destruct (conds_where W KWhere [] args kwds) as [ps [[]|e]]; [|reflexivity].
  exists (VNot ps). split; [reflexivity|]. intros E t. rewrite text_unfold. rewrite (text_unfold E (VConds ps)). cbn [str_body].
  destruct (conds_str (text E) [] ps) as [u|e]; cbn [bind].
  - split; [intros H; injection H as <-; exists u; split; reflexivity|]. intros [v [H ->]]. injection H as ->. reflexivity.
  - split; [discriminate|]. intros [v [H _]]. discriminate H.
Qed.
Lemma value_called : forall W args kwds v, value_given args kwds v ->
  call_module W (lit "V") args kwds = Ok (VSqlV v) /\ call_module W (lit "R") args kwds = Ok (VSqlR v).
Proof. intros W args kwds v G. destruct G; split; reflexivity. Qed.
