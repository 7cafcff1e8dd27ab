(** Proofs for C55: conditions. *)
From Coq Require Import Lia.
From Verif Require Import Base BaseFacts NumFmt Value Regex Backend Eq Render RenderFacts
  SpecLex SpecRef SpecRead SpecLogic SpecConds BoolFacts RefFacts LiteralFacts PfLiterals PfHistories SpecWhole PfWhole PfWholeText
  PfWholeClauses SpecSql SpecServer PfSql PfSqlParse.
Open Scope N_scope.

Section Cond.
Context (E : env).
Notation b := (e_be E).
Notation d := (dialect_of b).
Notation tells := (tells d).
Notation Hd := (ident_34_96 E).
Notation r := (text E).
Notation Mid := (tells_mid d Hd).
Notation Lead := (tells_lead d Hd).
Notation Word := (tells_word d Hd).

(** ** Leaves *)
Lemma word_tells : forall w, negb (is_nilb w) && forallb word_char w && negb (is_space (last w 0)) = true -> tells w [XWord w].
Proof.
  intros w H. apply andb_true_iff in H. destruct H as [H H3]. apply andb_true_iff in H. destruct H as [H1 H2].
  apply Word; [destruct w; [discriminate|intros X; discriminate]|exact H2|now apply negb_true_iff].
Qed.
Lemma digits_all : forall a, (forall c, In c a -> 48 <= c <= 57) -> all_digits a = true.
Proof.
  intros a H. unfold all_digits. apply forallb_forall. intros c I. apply H in I. apply andb_true_iff. rewrite !N.leb_le. exact I.
Qed.
Lemma digits_tell : forall a, a <> [] -> (forall c, In c a -> 48 <= c <= 57) -> tells a [XWord a].
Proof.
  intros a NE H. apply Word; [exact NE| |].
  - apply forallb_forall. intros c Hc. apply H in Hc. unfold word_char.
    replace (48 <=? c) with true by (symmetry; apply N.leb_le; lia).
    replace (c <=? 57) with true by (symmetry; apply N.leb_le; lia). reflexivity.
  - apply digit_space, H. destruct (exists_last NE) as [y [c ->]]. rewrite last_last. apply in_or_app. right. now left.
Qed.
Lemma number_tells : forall dec x l, five_decimals x = Some l -> tells (fmt5 dec x) (literal_lexemes b l) /\ literal_good l.
Proof.
  intros dec [neg n p| |] l L; try discriminate L. unfold five_decimals in L. cbv zeta in L. unfold fmt5. cbv zeta.
  set (k := round_half_even (n * 100000) p) in *.
  set (a := n_dec (k / 100000)) in *. set (f := fixed 5 (k mod 100000)) in *.
  assert (Na : a <> []) by apply n_dec_nonnil.
  assert (Nf : f <> []) by (apply fixed_nonnil; discriminate).
  assert (Da : forall c, In c a -> 48 <= c <= 57) by apply n_dec_digits.
  assert (Df : forall c, In c f -> 48 <= c <= 57) by apply fixed_digits.
  pose proof (Mid _ _ 46 [] [XSym 46] _ _ (digits_tell a Na Da) eq_refl (ltac:(split; reflexivity)) (digits_tell f Nf Df)) as T.
  injection L as <-. cbn [literal_lexemes literal_good]. split; [|auto using digits_all].
  destruct neg; [|exact T].
  destruct a as [|c a'] eqn:Qa; [contradiction|]. destruct T as [S [a0 [P A]]]. split; [now apply (solid_app [45])|].
  exists (TCode 45 :: a0). split.
  - apply (minus_piece d Hd); [|exact P]. apply N.eqb_neq. specialize (Da c (or_introl eq_refl)). lia.
  - intros ts B. cbn [app group]. change (word_char 45) with false. cbn match. cbn [flush app]. change (symbol 45) with [XSym 45].
    cbn [app]. now rewrite A.
Qed.
Lemma plain_tells : forall x l t, match x with VStr s => ~ reference_shaped (quote_of b) s | VBytes l => Forall (fun c => c < 256) l | _ => True end ->
  plain_literal b x = Some l -> sqlvalue E r x = Ok t ->
  tells t (literal_lexemes b l) /\ literal_good l.
Proof.
  intros x l t H L T. destruct x; try discriminate; cbn [plain_literal] in L;
    try (match goal with y : num |- _ => cbn [sqlvalue] in T; injection T as <-; exact (number_tells _ y l L) end);
    injection L as <-; cbn [sqlvalue] in T; injection T as <-.
  - split; [|exact Logic.I]. now apply (word_tells (lit "NULL")).
  - match goal with x : bool |- _ => rename x into v end. split; [|destruct (e_be E); exact Logic.I].
    assert (X : (be_boolean b v = z_dec (if v then 1 else 0)%Z /\ literal_lexemes b match b with BPostgres => LBool v | _ => LInt (if v then 1 else 0) end = [XWord (n_dec (if v then 1 else 0))])
      \/ (be_boolean b v = (if v then lit "true" else lit "false") /\ literal_lexemes b match b with BPostgres => LBool v | _ => LInt (if v then 1 else 0) end = [XWord (if v then lit "true" else lit "false")])).
    { destruct (e_be E); destruct v; cbn; auto. }
    destruct X as [[-> ->]|[-> ->]].
    + destruct v; [apply (tells_digits E 1)|apply (tells_digits E 0)].
    + destruct v; now apply word_tells.
  - split; [|exact Logic.I]. cbn [literal_lexemes]. apply tells_int.
  - split; [|exact Logic.I]. now apply tells_string.
  - split; [|exact H]. now apply tells_bytes.
  - split; [|exact Logic.I]. match goal with x : date |- _ => exact (tells_plain E (date_iso x) (date_chars x)) end.
  - split; [|exact Logic.I]. match goal with x : date, y : time |- _ => exact (tells_plain E (datetime_iso x y) (datetime_chars x y)) end.
Qed.
Lemma value_tells : forall x l t, value_ok b x -> literal_of b x = Some l -> sqlvalue E r x = Ok t ->
  tells t (literal_lexemes b l) /\ literal_good l.
Proof.
  intros x l t H L T. unfold value_ok, literal_of, unwrapped in *.
  destruct x; try discriminate L; try (match type of T with sqlvalue E _ ?y = _ => exact (plain_tells y l t H L T) end).
  cbn [sqlvalue] in T. rewrite text_V in T. exact (plain_tells x l t H L T).
Qed.
Lemma good_path : forall q n, good_name q n -> name_segments n <> [].
Proof. now intros q n [_ H]. Qed.
Lemma name_tells : forall x t, name_ok b x -> sqlref E r x = Ok t ->
  exists p, path_of x = Some p /\ p <> [] /\ tells t (path_lexemes p).
Proof.
  intros x t H T. destruct x; try contradiction.
  - cbn [sqlref] in T. injection T as <-. exists (name_segments s). split; [reflexivity|].
    split; [exact (good_path _ _ H)|]. now apply tells_name.
  - destruct x; try contradiction. cbn [sqlref is_sql] in T. rewrite text_R in T. cbn [sqlref] in T. injection T as <-.
    exists (name_segments s). split; [reflexivity|]. split; [exact (good_path _ _ H)|]. now apply tells_name.
Qed.
Lemma names_tell : forall l ts, All (name_ok b) l -> mapM (sqlref E r) l = Ok ts ->
  Forall (fun p => p <> []) (paths_of l) /\ Forall2 tells ts (map path_lexemes (paths_of l)) /\ List.length (paths_of l) = List.length l.
Proof.
  induction l as [|x l IH]; intros ts H M.
  - injection M as <-. repeat split; constructor.
  - cbn [mapM] in M. destruct (sqlref E r x) as [t|e] eqn:Ex; [|discriminate]. cbn [bind] in M.
    destruct (mapM (sqlref E r) l) as [us|e] eqn:El; [|discriminate]. cbn [bind] in M. injection M as <-.
    destruct H as [Hx Hl]. destruct (name_tells x t Hx Ex) as [p [P [N T]]]. destruct (IH us Hl eq_refl) as [F [G L]].
    unfold paths_of in *. cbn [flat_map]. rewrite P. cbn [app map]. repeat split; try constructor; auto. cbn. now rewrite L.
Qed.
Lemma between_comma : between (lit ", ") [XSym 44].
Proof. split; reflexivity. Qed.
Lemma args_tell : forall f dd ps t, f <> [] -> forallb word_char f = true -> leadb (f ++ [40]) = true -> ps <> [] ->
  tells t (joinx [XSym 44] (map path_lexemes ps)) ->
  tells (f ++ paren ((if dd : bool then lit "DISTINCT " else []) ++ t)) (expr_lexemes (ECall f dd ps)).
Proof.
  intros f dd ps t NE W L NP T.
  assert (T' : tells ((if dd then lit "DISTINCT " else []) ++ t) ((if dd then [XWord (lit "DISTINCT")] else []) ++ joinx [XSym 44] (map path_lexemes ps))).
  { destruct dd; [|exact T]. apply Lead; [split; reflexivity|exact T]. }
  apply tells_close in T'; [|exact Hd].
  assert (B : between (f ++ [40]) [XWord f; XSym 40]).
  { split; [exact L|]. intros ts. rewrite map_app, <- app_assoc. rewrite group_word by exact W.
    cbn [map app]. destruct f; [contradiction|]. reflexivity. }
  pose proof (Lead _ _ _ _ B T') as Q. unfold paren, expr_lexemes. rewrite <- !app_assoc in Q. rewrite <- !app_assoc. exact Q.
Qed.
Lemma list_tell : forall l ts, l <> [] -> All (name_ok b) l -> mapM (sqlref E r) l = Ok ts ->
  paths_of l <> [] /\ Forall (fun p => p <> []) (paths_of l) /\ tells (sjoin (lit ", ") ts) (joinx [XSym 44] (map path_lexemes (paths_of l))).
Proof.
  intros l ts NE H M. destruct (names_tell l ts H M) as [F [T L]]. split.
  - intros X. rewrite X in L. now destruct l.
  - split; [exact F|]. apply (tells_join d Hd 44 [32]); [reflexivity|apply between_comma| |exact T].
    intros X. subst ts. destruct (paths_of l); [now destruct l|]. inversion T.
Qed.
Lemma agg_tells : forall k x t, name_ok b x -> agg_expr E r k x = Ok t ->
  exists p, path_of x = Some p /\ p <> [] /\ tells t (path_lexemes p).
Proof.
  intros k x t H T.
  assert (P : forall u, expr_str E r x = Ok u -> exists p, path_of x = Some p /\ p <> [] /\ tells u (path_lexemes p)).
  { intros u U. apply name_tells; [exact H|]. destruct x; try contradiction; exact U. }
  destruct k; try exact (P t T). cbn [agg_expr] in T.
  destruct (pyeq r x (VStr (lit "*"))) as [[]|e] eqn:Q; try discriminate; cbn [bind] in T; [|exact (P t T)].
  destruct x; try contradiction.
  - cbn in Q. injection Q as Q. apply seqb_eq in Q. subst s. rewrite text_unfold in T. cbn in T. injection T as <-.
    exists [[42]]. split; [reflexivity|]. split; [discriminate|].
    split; [now exists [], 42|]. exists [TCode 42]. split; [apply (code_piece d Hd [42]); reflexivity|]. reflexivity.
  - destruct x; try contradiction. apply (name_tells (VSqlR (VStr s))); [exact H|]. exact T.
Qed.
Definition known (f : str) : Prop :=
  p_literal [XWord f; XSym 40] = None /\ f <> lit "NOT" /\ existsb (seqb f) select_options = false.
Lemma expr_tells : forall x t, expr_ok b x -> sqlref E r x = Ok t ->
  exists e, expr_of x = Some e /\ expr_good e /\ tells t (expr_lexemes e) /\
    (forall f dd ps, e = ECall f dd ps -> known f).
Proof.
  intros x t H T.
  assert (N : name_ok b x -> expr_of x = option_map EColumn (path_of x) ->
    exists e, expr_of x = Some e /\ expr_good e /\ tells t (expr_lexemes e) /\
    (forall f dd ps, e = ECall f dd ps -> known f)).
  { intros Hx X. destruct (name_tells x t Hx T) as [p [P [NE Q]]]. exists (EColumn p). rewrite X, P.
    split; [reflexivity|]. split; [exact NE|]. split; [exact Q|]. intros f dd ps Y. discriminate. }
  destruct x; try contradiction; try (apply N; [exact H|reflexivity]).
  - (* functions *)
    cbn [sqlref is_sql] in T. rewrite text_unfold in T. cbn [str_body] in T.
    destruct (agg_expr E r k x) as [u|e] eqn:U; [|discriminate]. cbn [bind] in T. injection T as <-.
    assert (K : forall ps, ps <> [] -> Forall (fun p => p <> []) ps -> tells u (joinx [XSym 44] (map path_lexemes ps)) ->
      expr_good (ECall (function_name k) distinct ps) /\
      tells (agg_name k ++ paren ((if distinct then lit "DISTINCT " else []) ++ u)) (expr_lexemes (ECall (function_name k) distinct ps)) /\
      forall f dd qs, ECall (function_name k) distinct ps = ECall f dd qs -> known f).
    { intros ps NP F Tu. split; [split; assumption|]. split.
      - replace (agg_name k) with (function_name k) by (destruct k; reflexivity).
        apply args_tell; auto; destruct k; try reflexivity; discriminate.
      - intros f dd qs X. injection X as <- _ _. destruct k; (split; [reflexivity|split; [discriminate|reflexivity]]). }
    assert (One : name_ok b x -> match x with VSeq _ _ => False | _ => True end -> exists e, expr_of (VAgg k distinct x) = Some e /\ expr_good e /\
      tells (agg_name k ++ paren ((if distinct then lit "DISTINCT " else []) ++ u)) (expr_lexemes e) /\
      (forall f dd ps, e = ECall f dd ps -> known f)).
    { intros Hx NS. destruct (agg_tells k x u Hx U) as [p [P [NE Q]]].
      exists (ECall (function_name k) distinct [p]). split; [destruct x; try contradiction; cbn [expr_of]; now rewrite P|].
      apply K; [discriminate|now constructor|exact Q]. }
    assert (Many : forall s l, x = VSeq s l -> (s = KList \/ s = KTuple) -> l <> [] -> All (name_ok b) l -> exists e, expr_of (VAgg k distinct x) = Some e /\ expr_good e /\
      tells (agg_name k ++ paren ((if distinct then lit "DISTINCT " else []) ++ u)) (expr_lexemes e) /\
      (forall f dd ps, e = ECall f dd ps -> known f)).
    { intros s l -> S NE Hl. assert (X : expr_str E r (VSeq s l) = Ok u) by (destruct k; try exact U; exact U).
      destruct (mapM (sqlref E r) l) as [ts|e] eqn:M; [|destruct S; subst s; cbn [expr_str] in X; rewrite M in X; discriminate].
      assert (u = sjoin (lit ", ") ts) by (destruct S; subst s; cbn [expr_str] in X; rewrite M in X; cbn [bind] in X; now injection X as <-). subst u.
      destruct (list_tell l ts NE Hl M) as [NP [F Tu]]. exists (ECall (function_name k) distinct (paths_of l)). split; [reflexivity|].
      now apply K. }
    destruct x; try contradiction; try (apply One; [exact H|exact Logic.I]).
    destruct k0; try contradiction; destruct H as [NE Hl]; eapply Many; eauto.
  - (* concat *)
    cbn [sqlref is_sql] in T. rewrite text_unfold in T. cbn [str_body] in T.
    destruct (columns_str E r cols) as [u|e] eqn:U; [|discriminate]. cbn [bind] in T. injection T as <-. destruct H as [NE Hl].
    assert (X : columns_str E r cols = do ts <- mapM (sqlref E r) (map fst cols); Ok (parts_str [] (lit "*") (lit ", ") ts)).
    { unfold columns_str. f_equal. clear U NE. induction cols as [|[x a] cols IH]; [reflexivity|]. destruct Hl as [[_ A] Hl]. cbn in A. subst a.
      cbn [map fst mapM aliased_str truthy]. now rewrite IH. }
    rewrite X in U. destruct (mapM (sqlref E r) (map fst cols)) as [ts|e] eqn:M; [|discriminate]. cbn [bind] in U. injection U as <-.
    assert (Hn : All (name_ok b) (map fst cols)).
    { clear - Hl. induction cols as [|[x a] cols IH]; [exact Logic.I|]. destruct Hl as [[Hx _] Hl]. split; auto. }
    destruct (list_tell (map fst cols) ts (ltac:(destruct cols; [contradiction|discriminate])) Hn M) as [NP [F Tu]].
    exists (ECall (lit "CONCAT") false (paths_of (map fst cols))). split; [reflexivity|]. split; [split; assumption|]. split.
    + assert (Nt : is_nilb ts = false). { destruct cols as [|[x a] cols]; [contradiction|]. cbn [map fst mapM] in M.
        destruct (sqlref E r x); [|discriminate]. destruct (mapM (sqlref E r) (map fst cols)); [|discriminate]. cbn [bind] in M. now injection M as <-. }
      unfold parts_str. rewrite Nt. cbn [is_nilb]. apply (args_tell (lit "CONCAT") false); auto; discriminate.
    + intros f dd ps Y. injection Y as <- _ _. split; [reflexivity|split; [discriminate|reflexivity]].
Qed.

(** ** Predicates *)
Definition op_lexemes (o : compop) : list lexeme :=
  match o with
  | CEq => [XSym 61] | CNe => [XSym 33; XSym 61] | CLt => [XSym 60] | CLe => [XSym 60; XSym 61]
  | CGt => [XSym 62] | CGe => [XSym 62; XSym 61] | CLike => [XWord (lit "LIKE")]
  | CNotLike => [XWord (lit "NOT"); XWord (lit "LIKE")] | CRegexp => [XWord (lit "REGEXP")]
  | CIs => [XWord (lit "IS")] | CIsNot => [XWord (lit "IS"); XWord (lit "NOT")]
  end.
Lemma between_op : forall rk o, operator_of rk = Some o -> between (c_sp :: rel_str rk ++ [c_sp]) (op_lexemes o).
Proof. intros rk o H. destruct rk; try discriminate; injection H as <-; split; reflexivity. Qed.

Definition fit (e : expr) : Prop :=
  expr_good e /\ forall f dd ps, e = ECall f dd ps -> known f.
Definition operand_lexemes (x : operand) : list lexeme :=
  match x with OExpr e => expr_lexemes e | OLiteral l => literal_lexemes b l end.
Definition operand_good (x : operand) : Prop := match x with OExpr e => fit e | OLiteral l => literal_good l end.
Lemma operand_reads : forall x, operand_good x -> reads p_operand dot (operand_lexemes x) x.
Proof.
  intros [e|l] G; cbn [operand_good operand_lexemes] in *.
  - destruct G as [G K]. destruct (expr_reads e G) as [NE R]. split; [exact NE|]. intros rest S. unfold p_operand.
    rewrite expr_not_literal; [|exact G|intros f dd ps X; exact (proj1 (K f dd ps X))]. now rewrite R.
  - destruct (literal_reads b l G) as [NE R]. split; [exact NE|]. intros rest S. unfold p_operand. now rewrite R.
Qed.
Lemma expr_head : forall e rest, fit e -> exists x u, expr_lexemes e ++ rest = x :: u /\
  ((exists s, x = XId s) \/ x = XSym 42 \/ exists f, x = XWord f /\ f <> lit "NOT").
Proof.
  intros [p|f dd ps] rest [G K].
  - destruct (path_first p rest G) as [x [u [X [Y|Y]]]]; exists x, u; auto.
  - cbn [expr_lexemes app]. do 2 eexists. split; [reflexivity|]. right. right. exists f. split; [reflexivity|].
    exact (proj1 (proj2 (K f dd ps eq_refl))).
Qed.
Lemma literal_head_not : forall l, literal_good l -> exists y u, literal_lexemes b l = y :: u /\ y <> XSym 61 /\ y <> XWord (lit "NOT").
Proof.
  intros l G. assert (D : forall a, all_digits a = true -> XWord a <> XWord (lit "NOT")).
  { intros a A X. injection X as X. now rewrite X in A. }
  destruct l as [|[]|z|s|x|neg a f]; cbn [literal_lexemes].
  1,2,3,5: do 2 eexists; split; [reflexivity|]; split; discriminate.
  - destruct (z <? 0)%Z; do 2 eexists; (split; [reflexivity|]); split; try discriminate. apply D, digits_all, n_dec_digits.
  - destruct b; do 2 eexists; (split; [reflexivity|]); split; discriminate.
  - destruct neg; do 2 eexists; (split; [reflexivity|]); split; try discriminate. apply D. apply G.
Qed.
Lemma operand_head : forall x rest, operand_good x -> exists y u, operand_lexemes x ++ rest = y :: u /\
  y <> XSym 61 /\ y <> XWord (lit "NOT").
Proof.
  intros [e|l] rest G; cbn [operand_good operand_lexemes] in *.
  - destruct (expr_head e rest G) as [x [u [X K]]]. exists x, u. split; [exact X|].
    destruct K as [[s ->]|[->|[f [-> N]]]]; split; try discriminate. intros Y.
    apply N. change (match XWord f with XWord w => w | _ => [] end = lit "NOT"). now rewrite Y.
  - destruct (literal_head_not l G) as [y [u [-> [N1 N2]]]]. cbn [app]. eauto.
Qed.
Lemma operator_reads : forall o y u, y <> XSym 61 -> y <> XWord (lit "NOT") ->
  p_operator (op_lexemes o ++ y :: u) = Some (o, y :: u) /\ in_list (op_lexemes o ++ y :: u) = None.
Proof.
  intros o y u N1 N2.
  assert (S : sym 61 (y :: u) = None).
  { destruct y; try reflexivity. cbn. destruct (N.eqb_spec c 61) as [->|]; [contradiction|reflexivity]. }
  assert (K : keyword (lit "NOT") (y :: u) = None).
  { destruct y; try reflexivity. cbn. destruct (seqb w (lit "NOT")) eqn:X; [apply seqb_eq in X; subst; contradiction|].
    revert X. cbn. intros ->. reflexivity. }
  destruct o; cbn [op_lexemes app]; split; try reflexivity.
  - unfold p_operator. change (60 =? 61) with false. change (60 =? 33) with false. change (60 =? 60) with true. cbn match. now rewrite S.
  - unfold p_operator. change (62 =? 61) with false. change (62 =? 33) with false. change (62 =? 60) with false. change (62 =? 62) with true. cbn match. now rewrite S.
  - unfold p_operator. change (seqb (lit "IS") (lit "LIKE")) with false. change (seqb (lit "IS") (lit "NOT")) with false.
    change (seqb (lit "IS") (lit "REGEXP")) with false. change (seqb (lit "IS") (lit "IS")) with true. cbn match. now rewrite K.
Qed.
Lemma fit_not_not : forall e rest, fit e -> keyword (lit "NOT") (expr_lexemes e ++ rest) = None /\ sym 40 (expr_lexemes e ++ rest) = None.
Proof.
  intros e rest F. destruct (expr_head e rest F) as [x [u [-> K]]].
  destruct K as [[s ->]|[->|[f [-> N]]]]; [split; reflexivity|split; reflexivity|]. split; [|reflexivity].
  cbn [keyword]. destruct (seqb f (lit "NOT")) eqn:X; [apply seqb_eq in X; contradiction|reflexivity].
Qed.
Lemma compare_parses : forall e o x, fit e -> operand_good x ->
  parses Factor (expr_lexemes e ++ op_lexemes o ++ operand_lexemes x) (SCompare e o x).
Proof.
  intros e o x F G. apply predicate_parses.
  - destruct F as [F K]. destruct (expr_reads e F) as [NE R]. destruct (operand_reads x G) as [NE' R'].
    split; [destruct (expr_lexemes e); [contradiction|discriminate]|]. intros rest S. unfold p_predicate.
    rewrite <- !app_assoc. rewrite R by (destruct o; cbn; intuition discriminate).
    destruct (operand_head x rest G) as [y [u [X [N1 N2]]]]. specialize (R' rest S). rewrite X in *.
    destruct (operator_reads o y u N1 N2) as [P Q]. rewrite Q, P, R'. reflexivity.
  - intros rest. rewrite <- app_assoc. now apply fit_not_not.
Qed.
Definition in_lexemes (neg : bool) : list lexeme := (if neg then [XWord (lit "NOT")] else []) ++ [XWord (lit "IN")].
Lemma in_parses : forall e neg ls, fit e -> ls <> [] -> Forall literal_good ls ->
  parses Factor (expr_lexemes e ++ in_lexemes neg ++ XSym 40 :: joinx [XSym 44] (map (literal_lexemes b) ls) ++ [XSym 41]) (SIn e neg ls).
Proof.
  intros e neg ls F NE G. apply predicate_parses.
  - destruct F as [F K]. destruct (expr_reads e F) as [NE' R].
    assert (L : Forall2 (reads p_literal dot) (map (literal_lexemes b) ls) ls).
    { clear NE. induction G; constructor; auto using literal_reads. }
    destruct (bracketed_reads _ p_literal dot _ _ L) as [_ R'].
    { destruct ls; [contradiction|discriminate]. } { cbn; intuition discriminate. } { cbn; intuition discriminate. }
    split; [destruct (expr_lexemes e); [contradiction|discriminate]|]. intros rest S. unfold p_predicate.
    rewrite <- !app_assoc. rewrite R by (destruct neg; cbn; intuition discriminate).
    specialize (R' rest (stops_nil rest)).
    assert (I : forall u, in_list (in_lexemes neg ++ u) = Some (neg, u)) by (destruct neg; reflexivity).
    rewrite I. now rewrite R'.
  - intros rest. rewrite <- app_assoc. now apply fit_not_not.
Qed.

(** ** One condition *)
Definition asks (x : val) : sem := fun c v => asked b c v x.
Definition factor_of (t : str) (f : sem) : Prop := exists ls e, tells t ls /\ parses Factor ls e /\ means e f.

Lemma compare_text : forall e o x ct xt rk, fit e -> operand_good x -> operator_of rk = Some o ->
  tells ct (expr_lexemes e) -> tells xt (operand_lexemes x) ->
  tells (ct ++ lit " " ++ rel_str rk ++ lit " " ++ xt) (expr_lexemes e ++ op_lexemes o ++ operand_lexemes x).
Proof.
  intros e o x ct xt rk F G O T T'.
  pose proof (Mid _ _ c_sp (rel_str rk ++ [c_sp]) _ _ _ T eq_refl (between_op rk o O) T') as Q.
  rewrite <- app_comm_cons, <- app_assoc in Q. exact Q.
Qed.
Lemma members_filter : forall l, members b (filter (fun x => negb (is_none x)) l) = members b l.
Proof.
  induction l as [|x l IH]; [reflexivity|]. unfold members in *. cbn [filter flat_map].
  destruct x; cbn [is_none negb is_None flat_map]; rewrite ?IH; reflexivity.
Qed.
Lemma members_tell : forall l ts, All (fun x => value_ok b x /\ literal_of b x <> None) l -> mapM (sqlvalue E r) l = Ok ts ->
  forallb (fun x => negb (is_none x)) l = true ->
  Forall literal_good (members b l) /\ Forall2 tells ts (map (literal_lexemes b) (members b l)) /\ List.length (members b l) = List.length l.
Proof.
  induction l as [|x l IH]; intros ts H M N.
  - injection M as <-. repeat split; constructor.
  - cbn [mapM] in M. destruct (sqlvalue E r x) as [t|e] eqn:Ex; [|discriminate]. cbn [bind] in M.
    destruct (mapM (sqlvalue E r) l) as [us|e] eqn:El; [|discriminate]. cbn [bind] in M. injection M as <-.
    cbn [forallb] in N. apply andb_true_iff in N. destruct N as [Nx N].
    destruct H as [[Hx Lx] Hl]. destruct (IH us Hl eq_refl N) as [F [G L]].
    destruct (literal_of b x) as [y|] eqn:Y; [|contradiction]. destruct (value_tells x y t Hx Y Ex) as [T Gy].
    unfold members in *. cbn [flat_map]. replace (is_None x) with false by (destruct x; auto; discriminate). rewrite Y.
    cbn [app map]. repeat split; try constructor; auto. cbn. now rewrite L.
Qed.
Lemma transformer_seq : forall k s l, transformer E r k (VSeq s l) = sqlvalue E r.
Proof. now intros []. Qed.
Lemma in_text : forall e ct ms neg xt, fit e -> tells ct (expr_lexemes e) ->
  tells xt (joinx [XSym 44] (map (literal_lexemes b) ms)) ->
  tells (ct ++ lit (if neg : bool then " NOT IN " else " IN ")%string ++ paren xt)
    (expr_lexemes e ++ in_lexemes neg ++ XSym 40 :: joinx [XSym 44] (map (literal_lexemes b) ms) ++ [XSym 41]).
Proof.
  intros e ct ms neg xt F T T'. apply (tells_paren d Hd) in T'.
  destruct neg.
  - exact (Mid _ _ c_sp (lit "NOT IN ") [XWord (lit "NOT"); XWord (lit "IN")] _ _ T eq_refl (ltac:(split; reflexivity)) T').
  - exact (Mid _ _ c_sp (lit "IN ") [XWord (lit "IN")] _ _ T eq_refl (ltac:(split; reflexivity)) T').
Qed.
Lemma null_text : forall e ct o rk, fit e -> tells ct (expr_lexemes e) -> operator_of rk = Some o ->
  tells (ct ++ lit " " ++ rel_str rk ++ lit " NULL") (expr_lexemes e ++ op_lexemes o ++ [XWord (lit "NULL")]).
Proof.
  intros e ct o rk F T O. apply (compare_text e o (OLiteral LNull) ct (lit "NULL") rk F Logic.I O T).
  now apply (word_tells (lit "NULL")).
Qed.
Lemma filter_nonnone : forall l, forallb (fun x => negb (is_none x)) (filter (fun x => negb (is_none x)) l) = true.
Proof. induction l as [|x l IH]; [reflexivity|]. cbn [filter]. destruct (negb (is_none x)) eqn:X; [cbn; now rewrite X|exact IH]. Qed.
Lemma All_filter : forall A (P : A -> Prop) f l, All P l -> All P (filter f l).
Proof. induction l as [|x l IH]; intros H; [exact H|]. destruct H as [Hx H]. cbn. destruct (f x); [split; auto|auto]. Qed.
Lemma existsb_none : forall l, existsb is_None l = existsb is_none l.
Proof. induction l as [|x l IH]; [reflexivity|]. cbn. rewrite IH. now destruct x. Qed.

Lemma in_factor : forall e ct k s l neg t, fit e -> tells ct (expr_lexemes e) ->
  All (fun x => value_ok b x /\ literal_of b x <> None) l ->
  fmt_in (Ok ct) (if neg : bool then RNotIn else RIn) (transformer E r k (VSeq s l)) (VSeq s l) = Ok t ->
  factor_of t (fun c v => if neg then none_of b c (v e) l else one_of b c (v e) l).
Proof.
  intros e ct k s l neg t F T H X. rewrite transformer_seq in X. unfold fmt_in in X.
  set (l' := filter (fun x => negb (is_none x)) l) in *.
  assert (M' : members b l' = members b l) by apply members_filter.
  assert (H' : All (fun x => value_ok b x /\ literal_of b x <> None) l') by now apply All_filter.
  assert (In_ : forall xt, sqlvalue E r (VSeq KList l') = Ok xt ->
    exists u, xt = paren u /\ tells u (joinx [XSym 44] (map (literal_lexemes b) (members b l))) /\ members b l <> [] /\ Forall literal_good (members b l)).
  { intros xt Y. cbn [sqlvalue] in Y. destruct (truthy (VSeq KList l')) eqn:Tr; [|discriminate].
    destruct (mapM (sqlvalue E r) l') as [ts|] eqn:Mt; [|discriminate]. cbn [bind] in Y. injection Y as <-.
    destruct (members_tell l' ts H' Mt (filter_nonnone l)) as [G [Q L]]. rewrite M' in *.
    assert (NM : members b l <> []). { intros Z. rewrite Z in L. cbn in Tr. destruct l'; [discriminate|discriminate]. }
    exists (sjoin (lit ", ") ts). split; [reflexivity|]. split; [|auto].
    apply (tells_join d Hd 44 [32]); [reflexivity|apply between_comma| |exact Q].
    intros Z. subst ts. destruct (members b l); [contradiction|]. inversion Q. }
  assert (IsN : forall o, parses Factor (expr_lexemes e ++ op_lexemes o ++ [XWord (lit "NULL")]) (SCompare e o (OLiteral LNull))).
  { intros o. exact (compare_parses e o (OLiteral LNull) F Logic.I). }
  unfold factor_of, means.
  destruct (existsb is_none l) eqn:Ex.
  - destruct (is_nilb l') eqn:Nl.
    + assert (Z : members b l = []) by (rewrite <- M'; destruct l'; [reflexivity|discriminate]).
      destruct neg; cbn [bind] in X; injection X as <-.
      * exists (expr_lexemes e ++ op_lexemes CIsNot ++ [XWord (lit "NULL")]), (SCompare e CIsNot (OLiteral LNull)).
        split; [exact (null_text e ct CIsNot RIsNot F T eq_refl)|]. split; [apply IsN|].
        intros c v. unfold none_of. rewrite Z, existsb_none, Ex. cbn. now destruct (null (v e)).
      * exists (expr_lexemes e ++ op_lexemes CIs ++ [XWord (lit "NULL")]), (SCompare e CIs (OLiteral LNull)).
        split; [exact (null_text e ct CIs RIs F T eq_refl)|]. split; [apply IsN|].
        intros c v. unfold one_of. rewrite Z, existsb_none, Ex. cbn. now destruct (null (v e)).
    + destruct neg; cbn [bind] in X; destruct (sqlvalue E r (VSeq KList l')) as [xt|] eqn:Xt; try discriminate; cbn [bind] in X; injection X as <-;
      destruct (In_ xt eq_refl) as [u [-> [Tu [NM G]]]].
      * pose proof (in_text e ct (members b l) true u F T Tu) as T1. pose proof (null_text e ct CIsNot RIsNot F T eq_refl) as T2.
        pose proof (Mid _ _ c_sp (lit "AND ") [XWord (lit "AND")] _ _ T1 eq_refl (ltac:(split; reflexivity)) T2) as T3.
        apply (tells_paren d Hd) in T3.
        eexists. exists (SAnd (SIn e true (members b l)) (SCompare e CIsNot (OLiteral LNull))). split; [|split].
        -- match goal with |- tells ?s _ => match type of T3 with tells ?s' _ => replace s with s' end end; [exact T3|].
           unfold paren. rewrite <- !app_assoc. reflexivity.
        -- apply paren_parses, term_search. cbn [app]. apply t_and; [now apply in_parses|]. apply t_one, IsN.
        -- intros c v. unfold none_of. rewrite existsb_none, Ex. reflexivity.
      * pose proof (in_text e ct (members b l) false u F T Tu) as T1. pose proof (null_text e ct CIs RIs F T eq_refl) as T2.
        pose proof (Mid _ _ c_sp (lit "OR ") [XWord (lit "OR")] _ _ T1 eq_refl (ltac:(split; reflexivity)) T2) as T3.
        apply (tells_paren d Hd) in T3.
        eexists. exists (SOr (SIn e false (members b l)) (SCompare e CIs (OLiteral LNull))). split; [|split].
        -- match goal with |- tells ?s _ => match type of T3 with tells ?s' _ => replace s with s' end end; [exact T3|].
           unfold paren. rewrite <- !app_assoc. reflexivity.
        -- apply paren_parses. cbn [app]. apply or_search; [apply t_one; now apply in_parses|]. apply t_one, IsN.
        -- intros c v. unfold one_of. rewrite existsb_none, Ex. reflexivity.
  - unfold fmt_plain in X. cbn [bind] in X. destruct (sqlvalue E r (VSeq KList l')) as [xt|] eqn:Xt; [|discriminate]. cbn [bind] in X.
    injection X as <-. destruct (In_ xt eq_refl) as [u [-> [Tu [NM G]]]].
    eexists. exists (SIn e neg (members b l)). split; [|split].
    + pose proof (in_text e ct (members b l) neg u F T Tu) as Q. destruct neg; exact Q.
    + now apply in_parses.
    + intros c v. unfold none_of, one_of. rewrite existsb_none, Ex. cbn [andb negb truth].
      destruct neg; [now rewrite and3_true_r|now rewrite or3_false_r].
Qed.
Lemma operand_tells : forall k x y t, operand_ok b k x -> operand_of b k x = Some y ->
  transformer E r k x x = Ok t -> operand_good y /\ tells t (operand_lexemes y).
Proof.
  intros k x y t H O T.
  assert (Lit : forall l, value_ok b x -> literal_of b x = Some l -> sqlvalue E r x = Ok t ->
    operand_good (OLiteral l) /\ tells t (operand_lexemes (OLiteral l))).
  { intros l Hv L S. destruct (value_tells x l t Hv L S). split; auto. }
  assert (Nam : name_ok b x -> sqlref E r x = Ok t -> option_map OExpr (expr_of x) = Some y ->
    operand_good y /\ tells t (operand_lexemes y)).
  { intros Hn S X. assert (Ho : expr_ok b x) by (destruct x; try contradiction; exact Hn).
    destruct (expr_tells x t Ho S) as [e [Ee [G [Q K]]]]. rewrite Ee in X. injection X as <-. split; [split; [exact G|exact K]|exact Q]. }
  assert (Lit' : value_ok b x -> option_map OLiteral (literal_of b x) = Some y -> sqlvalue E r x = Ok t ->
    operand_good y /\ tells t (operand_lexemes y)).
  { intros Hv X S. destruct (literal_of b x) as [l|] eqn:L; [|discriminate]. injection X as <-. now apply Lit. }
  destruct k; destruct x; first [exact (Lit' H O T)|exact (Nam H T O)].
Qed.
Lemma one_factor : forall k c rk v t, one_ok b k c rk v -> text E (VCond k c rk v) = Ok t ->
  factor_of t (asks (VCond k c rk v)).
Proof.
  intros k c rk v t [Hc Hv] T. rewrite text_unfold in T. cbn [str_body] in T.
  destruct (sqlref E r c) as [ct|err] eqn:C.
  2:{ exfalso. unfold fmt_condition, fmt_in, fmt_plain in T. destruct rk; try discriminate T; destruct v; try discriminate T;
      destruct (existsb is_none l); try discriminate T; destruct (is_nilb _); discriminate T. }
  destruct (expr_tells c ct Hc C) as [e [Ee [G [Tc K]]]]. assert (F : fit e) by (split; assumption).
  assert (Plain : match rk with RIn | RNotIn => False | _ => True end ->
    operand_ok b k v -> operand_of b k v <> None ->
    factor_of t (asks (VCond k c rk v))).
  { intros P Hx Nx. destruct (operator_of rk) as [o|] eqn:O; [|destruct rk; try discriminate; contradiction].
    destruct (operand_of b k v) as [y|] eqn:Y; [|contradiction].
    assert (T' : fmt_plain (Ok ct) rk (transformer E r k v v) = Ok t) by (destruct rk; try exact T; contradiction).
    unfold fmt_plain in T'. cbn [bind] in T'. destruct (transformer E r k v v) as [xt|] eqn:Xt; [|discriminate]. cbn [bind] in T'. injection T' as <-.
    destruct (operand_tells k v y xt Hx Y Xt) as [Gy Ty].
    exists (expr_lexemes e ++ op_lexemes o ++ operand_lexemes y), (SCompare e o y). split; [now apply compare_text|].
    split; [now apply compare_parses|]. intros cm vl. unfold asks, asked. cbn [meaning asked_one]. rewrite Ee.
    destruct rk; try contradiction; rewrite ?O, Y; destruct y; reflexivity. }
  assert (Inn : forall s l neg, v = VSeq s l -> rk = (if neg : bool then RNotIn else RIn) ->
    All (fun x => value_ok b x /\ literal_of b x <> None) l -> factor_of t (asks (VCond k c rk v))).
  { intros s l neg -> -> H. assert (T' : fmt_in (Ok ct) (if neg then RNotIn else RIn) (transformer E r k (VSeq s l)) (VSeq s l) = Ok t)
      by (destruct neg; exact T).
    destruct (in_factor e ct k s l neg t F Tc H T') as [ls [x [Tl [P M]]]]. exists ls, x. split; [exact Tl|]. split; [exact P|].
    intros cm vl. rewrite M. unfold asks, asked. cbn [meaning asked_one]. rewrite Ee. destruct neg; reflexivity. }
  destruct rk; try (destruct Hv as [H1 H2]; now apply Plain).
  - destruct v; try contradiction. destruct Hv as [_ Hv]. now apply (Inn k0 l false).
  - destruct v; try contradiction. destruct Hv as [_ Hv]. now apply (Inn k0 l true).
Qed.
End Cond.
