(** Proofs: functions. *)
From Verif Require Import Base BaseFacts NumFmt Value Backend Eq Render RenderFacts ParseArgs Build Queries History
  SpecRead SpecRef SpecArgs SpecHistory SpecClauses SpecFunctions PfHistories PfArgs PfDedupe PfClauses PfStatements.
Open Scope N_scope.

Lemma separated_mapM : forall A (P : A -> str -> Prop) f sep (l : list A) t, (forall x u, f x = Ok u <-> P x u) ->
  (bind (mapM f l) (fun ts => Ok (sjoin sep ts)) = Ok t <-> separated sep P l t).
Proof.
  intros A P f sep l t H.
  assert (M : forall ts, mapM f l = Ok ts <-> Forall2 P l ts).
  { induction l as [|x l IH]; intros ts; cbn [mapM].
    - split; [intros Q; injection Q as <-; constructor|intros Q; inversion Q; reflexivity].
    - split.
      + destruct (f x) as [u|] eqn:F; cbn [bind]; [|discriminate]. destruct (mapM f l) as [us|] eqn:G; cbn [bind]; [|discriminate].
        intros Q. injection Q as <-. constructor; [now apply H|]. now apply IH.
      + intros Q. inversion Q as [|? u ? us Hu Hus]; subst. apply H in Hu. apply IH in Hus. rewrite Hu. cbn [bind]. rewrite Hus. reflexivity. }
  unfold separated. split.
  - destruct (mapM f l) as [ts|] eqn:G; cbn [bind]; [|discriminate]. intros Q. injection Q as <-. exists ts. split; [now apply M|reflexivity].
  - intros [ts [F ->]]. apply M in F. rewrite F. reflexivity.
Qed.
Lemma arguments_ok : forall E e t, expr_str E (text E) e = Ok t <-> arguments_text E e t.
Proof.
  intros E e t.
  assert (NT : forall x u, sqlref E (text E) x = Ok u <-> name_text E x u) by (intros x u; unfold name_text; rewrite text_R; reflexivity).
  assert (ONE : (forall l, ~ several e l) -> (sqlref E (text E) e = Ok t <-> arguments_text E e t)).
  { intros N. rewrite NT. split; [intros X; now apply at_one|]. intros [l S _|_ X]; [now destruct (N l)|exact X]. }
  assert (MANY : forall l, several e l -> (bind (mapM (sqlref E (text E)) l) (fun ts => Ok (sjoin (lit ", ") ts)) = Ok t <-> arguments_text E e t)).
  { intros l S. rewrite (separated_mapM _ (name_text E) _ _ _ _ NT). split; [intros X; now apply (at_several _ _ _ l)|].
    intros [l' S' X|N _]; [|now destruct (N l)]. replace l with l'; [exact X|]. destruct S as [-> | ->], S' as [S'|S']; congruence. }
  destruct e; try (apply ONE; intros l0 [X|X]; discriminate X).
  destruct k; cbn [expr_str]; try (apply ONE; intros l' [X|X]; discriminate X); apply MANY; [left|right]; reflexivity.
Qed.
Lemma star_eq : forall E e, (pyeq (text E) e (VStr (lit "*")) = Ok true /\ (e = VStr (lit "*") \/ text E e = expr_str E (text E) e)) \/
  (pyeq (text E) e (VStr (lit "*")) = Ok false /\ e <> VStr (lit "*")) \/
  (exists x, pyeq (text E) e (VStr (lit "*")) = Err x /\ expr_str E (text E) e = Err x /\ e <> VStr (lit "*")).
Proof.
  intros E e. destruct e as [|b|z|x|x|s|x|d|d t|k l|l|i|s|v|v|k v|kd c k v|c v|ps|o a b|ps|x|k d e0|cols|cols ords sep|e0 ty|q|t a b|q|q|q] eqn:EE;
    try (right; left; split; [reflexivity|discriminate]);
    try (cbn [pyeq textual_eq]; rewrite <- EE; destruct (text E e) as [t'|x'] eqn:T; cbn [bind];
         [destruct (seqb t' (lit "*")); [left; split; [reflexivity|right; subst e; cbn [expr_str sqlref is_sql]; symmetry; exact T]|right; left; split; [reflexivity|subst; discriminate]]
         |right; right; exists x'; subst e; split; [reflexivity|split; [exact T|discriminate]]]).
  - destruct (seqb s (lit "*")) eqn:Q; cbn [pyeq textual_eq]; rewrite Q.
    + left. split; [reflexivity|]. apply seqb_eq in Q. left. now subst.
    + right; left. split; [reflexivity|]. intros X. injection X as ->. discriminate Q.
  - destruct kd; right; left; (split; [reflexivity|discriminate]).
Qed.
Lemma count_arg : forall E e t, agg_expr E (text E) FCount e = Ok t <-> (e = VStr (lit "*") /\ t = lit "*") \/ (e <> VStr (lit "*") /\ expr_str E (text E) e = Ok t).
Proof.
  intros E e t. cbn [agg_expr]. destruct (star_eq E e) as [[-> X]|[[-> X]|[x [-> [X Y]]]]]; cbn [bind].
  - destruct X as [->|X].
    + rewrite text_unfold. cbn [str_body]. split; [intros Q; injection Q as <-; left; auto|]. intros [[_ ->]|[N _]]; [reflexivity|congruence].
    + destruct e; try (rewrite X; split; [intros Q; right; split; [discriminate|exact Q]|intros [[N _]|[_ Q]]; [discriminate N|exact Q]]).
      assert (TS : text E (VStr s) = Ok s) by (rewrite text_unfold; reflexivity). rewrite TS in *.
      split.
      * intros Q. injection Q as <-. destruct (seqb s (lit "*")) eqn:SQ; [apply seqb_eq in SQ; subst; left; split; reflexivity|].
        right. split; [intros Z; injection Z as ->; discriminate SQ|]. now rewrite <- X.
      * intros [[Z ->]|[_ Q]]; [injection Z as ->; reflexivity|]. rewrite X. exact Q.
  - split; [intros Q; right; auto|]. intros [[N _]|[_ Q]]; [now contradict N|exact Q].
  - rewrite X. split; [discriminate|]. intros [[N _]|[_ Q]]; [now contradict N|discriminate Q].
Qed.
Lemma distinct_run : forall ds k d e, fold_left agg_distinct ds (VAgg k d e) = VAgg k (match ds with [] => d | _ => distinct_wanted ds end) e.
Proof.
  unfold distinct_wanted. induction ds as [|x ds IH]; intros k d e; cbn [fold_left agg_distinct]; [reflexivity|]. rewrite IH. destruct ds; reflexivity.
Qed.
Lemma aggregate_ok : forall E k e ds t, text E (fold_left agg_distinct ds (mk_agg k e)) = Ok t <->
  exists a, aggregate_text E k e a /\ t = in_brackets (function_word k) ((if distinct_wanted ds then lit "DISTINCT " else []) ++ a).
Proof.
  intros E k e ds t. unfold mk_agg. rewrite distinct_run.
  replace (match ds with [] => false | _ => distinct_wanted ds end) with (distinct_wanted ds) by (destruct ds; reflexivity).
  set (e' := match k with FCount => if truthy e then e else VStr (lit "*") | _ => e end).
  assert (A : forall a, agg_expr E (text E) k e' = Ok a <-> aggregate_text E k e a).
  { intros a. assert (O : k <> FCount -> (expr_str E (text E) e = Ok a <-> aggregate_text E k e a)).
    { intros N. rewrite arguments_ok. split; [intros X; apply ag_arg; [congruence|exact X]|]. intros [K _ _|_ X]; [congruence|exact X]. }
    destruct k; try (apply O; discriminate). rewrite count_arg. unfold e'. destruct (truthy e) eqn:TR.
    - rewrite arguments_ok. split.
      + intros [[-> ->]|[N X]]; [now apply ag_star; auto|]. apply ag_arg; auto.
      + intros [_ [F| ->] ->|N X]; [congruence|left; auto|]. right. split; [now apply N|exact X].
    - split.
      + intros [[_ ->]|[N _]]; [|congruence]. apply ag_star; auto.
      + intros [_ _ ->|N _]; [left; auto|]. destruct (N eq_refl). congruence. }
  rewrite text_unfold. cbn [str_body]. split.
  - destruct (agg_expr E (text E) k e') as [a|] eqn:X; cbn [bind]; [|discriminate]. intros Q. injection Q as <-. exists a.
    split; [now apply A|]. unfold in_brackets. destruct k; reflexivity.
  - intros [a [X ->]]. apply A in X. rewrite X. cbn [bind]. unfold in_brackets. destruct k; reflexivity.
Qed.
(** concat and group_concat take their columns as select does. *)
Lemma concat_columns : forall W args,
  match sel_step W empty_select (SColumns args []) with
  | (q, Ok _) => mk_concat W args = Ok (VConcat (s_cols q)) /\ mk_group_concat W args = Ok (VGroupConcat (s_cols q) [] VNone)
  | (_, Err e) => mk_concat W args = Err e /\ mk_group_concat W args = Err e
  end.
Proof.
  intros W args. cbn [sel_step]. unfold mk_concat, mk_group_concat. cbn [s_cols empty_select].
  destruct (columns_add W [] args []) as [cols [[]|e]]; split; reflexivity.
Qed.
Lemma concat_ok : forall E cols t, text E (VConcat cols) = Ok t <-> exists a, columns_text E cols a /\ t = in_brackets (lit "CONCAT") a.
Proof.
  intros E cols t. rewrite text_unfold. cbn [str_body]. split.
  - destruct (columns_str E (text E) cols) as [a|] eqn:C; cbn [bind]; [|discriminate]. intros Q. injection Q as <-. exists a. split; [now apply columns_ok|reflexivity].
  - intros [a [C ->]]. apply columns_ok in C. rewrite C. reflexivity.
Qed.
Lemma last_def : forall A (l : list A) x d d', List.last (x :: l) d = List.last (x :: l) d'.
Proof. induction l as [|y l IH]; intros x d d'; [reflexivity|]. exact (IH y d d'). Qed.
Lemma gc_run : forall H cols ords sep,
  calls gc_step (VGroupConcat cols ords sep) H =
  VGroupConcat cols (s_order (calls sel_step (with_order empty_select ords) (as_select H))) (List.last (separators H) sep).
Proof.
  induction H as [|[W op] H IH]; intros cols ords sep; [reflexivity|]. unfold calls in *. cbn [fold_left fst snd]. destruct op as [args|s].
  - unfold gc_step. cbn [gc_order_by]. destruct (orders_add W ords args []) as [ords' o] eqn:O. cbn [fst]. rewrite IH.
    unfold as_select, separators. cbn [flat_map snd fst app fold_left].
    f_equal. f_equal. f_equal. cbn [sel_step s_order with_order]. rewrite O. reflexivity.
  - cbn [gc_step gc_separator fst]. rewrite IH. unfold as_select, separators. cbn [flat_map snd fst app]. f_equal.
    generalize (flat_map (fun p : world * gcop => match snd p with GOrderBy _ => [] | GSeparator s0 => [s0] end) H). intros l.
    destruct l as [|y l]; [reflexivity|]. exact (last_def _ l y s sep).
Qed.
Lemma group_concat_ok : forall E cols H t, text E (calls gc_step (VGroupConcat cols [] VNone) H) = Ok t <->
  exists a l s, columns_text E cols a /\ clause (lit "ORDER BY ") (lit ", ") (order_text E) (s_order (calls sel_step empty_select (as_select H))) l /\
    separator_words E (List.last (separators H) VNone) s /\ t = in_brackets (lit "GROUP_CONCAT") (words (a :: l ++ s)).
Proof.
  intros E cols H t. rewrite gc_run. change (with_order empty_select []) with empty_select. rewrite text_unfold. cbn [str_body].
  set (o := s_order _). set (s := List.last _ _).
  assert (SE : forall p, (if truthy s then do x <- sqlvalue E (text E) s; Ok (lit " SEPARATOR " ++ x) else Ok []) = Ok p <->
                exists l, separator_words E s l /\ p = spaced l).
  { intros p. unfold separator_words, value_text. rewrite text_V. destruct (truthy s).
    - destruct (sqlvalue E (text E) s) as [x|]; cbn [bind]; split.
      + intros Q. injection Q as <-. exists [lit "SEPARATOR " ++ x]. split; [right; eauto|]. cbn [spaced flat_map app]; rewrite ?app_nil_r; reflexivity.
      + intros [l [[[N _]|[_ [u [Q ->]]]] ->]]; [discriminate|]. injection Q as <-. cbn [spaced flat_map app]; rewrite ?app_nil_r; reflexivity.
      + discriminate.
      + intros [l [[[N _]|[_ [u [Q _]]]] _]]; discriminate.
    - split.
      + intros Q. injection Q as <-. exists []. split; [left; auto|reflexivity].
      + intros [l [[[_ ->]|[N _]] ->]]; [reflexivity|discriminate]. }
  split.
  - destruct (columns_str E (text E) cols) as [a|] eqn:C; cbn [bind]; [|discriminate]. apply columns_ok in C.
    match goal with |- bind ?p _ = _ -> _ => destruct p as [x|] eqn:O end; cbn [bind]; [|discriminate]. apply (order_part E (lit "ORDER BY") o x ltac:(discriminate)) in O. destruct O as [l [L ->]].
    destruct (if truthy s then _ else _) as [y|]; cbn [bind]; [|discriminate]. assert (S := proj1 (SE y) eq_refl). destruct S as [s' [S ->]].
    intros Q. injection Q as <-. exists a, l, s'. split; [exact C|]. split; [exact L|]. split; [exact S|].
    unfold in_brackets. rewrite words_cons, spaced_app. reflexivity.
  - intros [a [l [s' [C [L [S ->]]]]]]. apply columns_ok in C. rewrite C. cbn [bind].
    assert (O : part_ctx (negb (is_nilb o)) (orders_str E (text E) (lit "ORDER BY") o) = Ok (spaced l)) by (apply (order_part E (lit "ORDER BY") o _ ltac:(discriminate)); eauto).
    rewrite O. cbn [bind]. assert (X := proj2 (SE (spaced s')) (ex_intro _ s' (conj S eq_refl))). rewrite X. cbn [bind].
    unfold in_brackets. rewrite words_cons, spaced_app. reflexivity.
Qed.
Lemma convert_run : forall H e ty, exists ty', calls convert_to (VConvert e ty) H = VConvert e ty' /\
  (match ty' with Some t => t | None => lit "None" end) =
  List.last (flat_map (fun p => match w_str (fst p) (snd p) with Ok s => [supper (w_env (fst p)) s] | Err _ => [] end) H) (match ty with Some t => t | None => lit "None" end).
Proof.
  induction H as [|[W v] H IH]; intros e ty; [exists ty; split; reflexivity|]. unfold calls in *. cbn [fold_left fst snd flat_map convert_to].
  destruct (w_str W v) as [s|x]; cbn [bind commit fst app].
  - destruct (IH e (Some (supper (w_env W) s))) as [ty' [-> Q]]. exists ty'. split; [reflexivity|]. rewrite Q.
    set (l := flat_map _ H). destruct l as [|y l]; [reflexivity|]. apply (last_def _ l y).
  - apply IH.
Qed.
Lemma convert_ok : forall E e H t, text E (calls convert_to (VConvert e None) H) = Ok t <->
  exists a, arguments_text E e a /\ t = in_brackets (lit "CONVERT") (a ++ lit ", " ++ type_shown H).
Proof.
  intros E e H t. destruct (convert_run H e None) as [ty [-> Q]]. rewrite text_unfold. cbn [str_body]. fold (type_shown H) in Q. rewrite <- Q. split.
  - destruct (expr_str E (text E) e) as [a|] eqn:X; cbn [bind]; [|discriminate]. intros Z. injection Z as <-. exists a. split; [now apply arguments_ok|reflexivity].
  - intros [a [X ->]]. apply arguments_ok in X. rewrite X. reflexivity.
Qed.
Lemma convert_made : forall W e ty,
  (truthy ty = false -> mk_convert W e ty = Ok (calls convert_to (VConvert e None) [])) /\
  (truthy ty = true -> forall s, w_str W ty = Ok s -> mk_convert W e ty = Ok (calls convert_to (VConvert e None) [(W, ty)])).
Proof.
  intros W e ty. unfold mk_convert. split; [intros ->; reflexivity|]. intros -> s S. unfold calls. cbn [fold_left fst snd convert_to].
  rewrite S. reflexivity.
Qed.
