(** Proofs for C60-C61: values, columns and conditions as text. *)
From Coq Require Import Lia Permutation.
From Verif Require Import Base BaseFacts NumFmt Value Regex Backend Eq Render RenderFacts
  SpecLex SpecRef SpecRead SpecLogic SpecConds BoolFacts PfBool RefFacts LiteralFacts PfLiterals PfHistories SpecWhole PfWhole PfWholeText
  PfWholeClauses PfStatements SpecClauses PfClauses SpecSql SpecServer PfSql PfSqlParse PfSqlCond PfSqlClauses PfSqlStmt
  SpecNested SpecSays PfNestRead PfNestQuery PfNestText.
Open Scope N_scope.

Section Vals.
Context (E : env).
Notation b := (e_be E).
Notation d := (dialect_of b).
Notation tells := (tells d).
Notation part := (part d).
Notation Hd := (ident_34_96 E).
Notation r := (text E).
Notation Mid := (tells_mid d Hd).
Notation Lead := (tells_lead d Hd).

Definition xsaid (o : res str) (e : nexpr) : Prop := exists t ls, o = Ok t /\ tells t ls /\ xreads ls e.
Definition tsaid (x : val) (t : ntest) : Prop := exists tx ls, r x = Ok tx /\ tells tx ls /\ tsays ls t.
Definition qsaid (x : val) (q : nquery) : Prop := exists t ls, r x = Ok t /\ tells t ls /\ qreads ls q.
Definition unions_at (n m : nat) (lss : list (list lexeme)) (us : list (bool * ncore)) : Prop :=
  Forall2 (fun l u => exists a ls c, l = union_lexemes a ls /\ u = (a, c) /\ creads (fst (nested n)) (snd (nested m)) ls c) lss us.
Definition hsaid (x : val) (c : ncore) (us : list (bool * ncore)) : Prop :=
  exists t lc lss, r x = Ok t /\ tells t (lc ++ List.concat lss) /\ (exists u, lc = XWord (lit "SELECT") :: u) /\
    forall n m, (List.length (lc ++ List.concat lss) <= n)%nat -> (List.length (lc ++ List.concat lss) <= S m)%nat ->
      creads (fst (nested n)) (snd (nested m)) lc c /\ unions_at n m lss us.
Definition good (x : val) : Prop :=
  (forall e, object E x e -> xsaid (sqlref E r x) e) /\ (forall q, query E x q -> qsaid x q) /\
  (forall c us, chain E x c us -> hsaid x c us) /\ (forall t, condition E x t -> tsaid x t).

(** ** Shapes of objects *)
Lemma query_kind : forall x q, query E x q -> match x with VSelect _ | VUnion _ _ _ => True | _ => False end.
Proof. intros x q H. inversion H; exact Logic.I. Qed.
Lemma object_kind : forall x e, object E x e ->
  match x with
  | VSqlV _ | VSqlR _ | VAgg _ _ _ | VConcat _ | VGroupConcat _ _ _ | VConvert _ _ | VSelect _ | VUnion _ _ _ => True
  | _ => False
  end.
Proof. intros x e H. inversion H; subst; try exact Logic.I. match goal with Q : query E _ _ |- _ => apply query_kind in Q end. now destruct x. Qed.
Lemma object_same : forall x e, object E x e -> sqlvalue E r x = sqlref E r x.
Proof. intros x e H. apply object_kind in H. destruct x; try contradiction; reflexivity. Qed.
Lemma textual_ref : forall x, textual_eq x = true -> sqlref E r x = r x.
Proof. intros x H. destruct x; try discriminate; reflexivity. Qed.

(** ** Leaves *)
Lemma name_ref : forall x, name_ok b x -> exists t, sqlref E r x = Ok t.
Proof.
  intros x H. destruct x; try contradiction; [cbn; eauto|]. destruct x; try contradiction. cbn [sqlref is_sql]. rewrite text_R. cbn. eauto.
Qed.
Lemma name_text : forall x p, name_ok b x -> path_of x = Some p -> exists t, sqlref E r x = Ok t /\ p <> [] /\ tells t (path_lexemes p).
Proof.
  intros x p H P. destruct (name_ref x H) as [t T]. destruct (name_tells E x t H T) as [p' [P' [NE Q]]].
  rewrite P in P'. injection P' as <-. eauto.
Qed.
Lemma refers_said : forall x e, good x -> refers E x e -> xsaid (sqlref E r x) e.
Proof.
  intros x e G H. inversion H as [s N|z|y e' O]; subst.
  - exists (reference b s), (path_lexemes (name_segments s)). split; [reflexivity|]. split; [now apply tells_name|].
    apply xreads_column. exact (good_path _ _ N).
  - exists (z_dec z), (literal_lexemes b (LInt z)). split; [reflexivity|]. split; [apply tells_int|]. now apply xreads_literal.
  - now apply G.
Qed.
Lemma values_said : forall x e, good x -> values E x e -> xsaid (sqlvalue E r x) e.
Proof.
  intros x e G H. inversion H as [y l P|y e' O]; subst.
  - destruct P as [P Q]. assert (T : exists t, sqlvalue E r x = Ok t) by (destruct x; try discriminate P; cbn; eauto).
    destruct T as [t T]. destruct (plain_tells E x l t Q P T) as [T' L]. exists t, (literal_lexemes b l). split; [exact T|]. split; [exact T'|].
    now apply xreads_literal.
  - rewrite (object_same x e O). now apply G.
Qed.

(** ** Lists *)
Lemma mapM_said : forall A B (f : A -> res str) (Q : list lexeme -> B -> Prop) l ys,
  Forall2 (fun x y => exists t ls, f x = Ok t /\ tells t ls /\ Q ls y) l ys ->
  exists ts lss, mapM f l = Ok ts /\ Forall2 tells ts lss /\ Forall2 Q lss ys /\ List.length ts = List.length l.
Proof.
  intros A B f Q l ys F. induction F as [|x y l ys [t [ls [X [T R]]]] F [ts [lss [M [FT [FQ L]]]]]].
  - exists [], []. repeat split; constructor.
  - exists (t :: ts), (ls :: lss). cbn [mapM]. rewrite X, M. repeat split; try (constructor; assumption). cbn. now rewrite L.
Qed.
Lemma comma_tells : forall ts lss, Forall2 tells ts lss -> ts <> [] -> tells (sjoin (lit ", ") ts) (joinx [XSym 44] lss).
Proof. intros ts lss F NE. apply (tells_join d Hd 44 [32]); [reflexivity|apply between_comma|exact NE|exact F]. Qed.
Lemma length_nil : forall A B (l : list A) (m : list B), List.length l = List.length m -> m <> [] -> l <> [].
Proof. intros A B [|x l] [|y m] H N; try discriminate; contradiction. Qed.
Lemma length_nilb : forall A B (l : list A) (m : list B), List.length l = List.length m -> is_nilb l = is_nilb m.
Proof. intros A B [|x l] [|y m] H; try discriminate; reflexivity. Qed.
Lemma exprs_said : forall (f : val -> res str) l es, Forall2 (fun x e => xsaid (f x) e) l es -> l <> [] ->
  exists ts lss, mapM f l = Ok ts /\ ts <> [] /\ tells (sjoin (lit ", ") ts) (joinx [XSym 44] lss) /\ Forall2 xreads lss es /\ lss <> [].
Proof.
  intros f l es F NE. destruct (mapM_said _ _ f xreads l es F) as [ts [lss [M [FT [FQ L]]]]].
  assert (N : ts <> []) by (eapply length_nil; eauto). exists ts, lss. split; [exact M|]. split; [exact N|].
  split; [now apply comma_tells|]. split; [exact FQ|]. destruct FT; [contradiction|discriminate].
Qed.
Lemma list_said : forall A B (f : A -> res str) (P : NP B) bad l ys kw w ws,
  Forall2 (fun x y => exists t ls, f x = Ok t /\ tells t ls /\ readable P bad ls y) l ys ->
  ~ In (XSym 44) bad -> between (kw ++ [c_sp]) (map XWord (w :: ws)) -> kw <> [] ->
  exists x ls o, part_ctx (negb (is_nilb l)) (do ts <- mapM f l; Ok (parts_str kw [] (lit ", ") ts)) = Ok x /\ part x ls /\
    clause_in (w :: ws) (fun px pq => p_list (P px pq)) (XSym 44 :: bad) ls o /\ or_nil o = ys.
Proof.
  intros A B f P bad l ys kw w ws F NB K NK. destruct (mapM_said _ _ f _ l ys F) as [ts [lss [M [FT [FQ L]]]]].
  rewrite M. cbn [bind]. destruct l as [|x l].
  - inversion F; subst. exists [], [], None. split; [reflexivity|]. split; [apply part_none|]. split; [apply clause_in_none|reflexivity].
  - assert (N : ts <> []) by (intros ->; discriminate). assert (N' : lss <> []) by (destruct FT; [contradiction|discriminate]).
    cbn [is_nilb negb part_ctx bind]. exists (c_sp :: parts_str kw [] (lit ", ") ts), (map XWord (w :: ws) ++ joinx [XSym 44] lss), (Some ys).
    split; [reflexivity|]. split; [|split; [|reflexivity]].
    + apply part_some. unfold parts_str. destruct ts as [|t0 ts0]; [contradiction|]. cbn [is_nilb].
      destruct kw as [|c kw]; [contradiction|]. cbn [is_nilb]. pose proof (Lead _ _ _ _ K (comma_tells _ _ FT N)) as Q. rewrite <- app_assoc in Q. exact Q.
    + apply clause_in_some. now apply readable_list.
Qed.
Lemma bare_list_said : forall A B (f : A -> res str) (P : NP B) bad l ys def,
  Forall2 (fun x y => exists t ls, f x = Ok t /\ tells t ls /\ readable P bad ls y) l ys -> l <> [] -> ~ In (XSym 44) bad ->
  exists x ls, (do ts <- mapM f l; Ok (parts_str [] def (lit ", ") ts)) = Ok x /\ tells x ls /\
    readable (fun px pq => p_list (P px pq)) (XSym 44 :: bad) ls ys.
Proof.
  intros A B f P bad l ys def F NE NB. destruct (mapM_said _ _ f _ l ys F) as [ts [lss [M [FT [FQ L]]]]].
  rewrite M. cbn [bind]. assert (N : ts <> []) by (eapply length_nil; eauto). assert (N' : lss <> []) by (destruct FT; [contradiction|discriminate]).
  exists (sjoin (lit ", ") ts), (joinx [XSym 44] lss). split; [|split].
  - unfold parts_str. destruct ts; [contradiction|reflexivity].
  - now apply comma_tells.
  - now apply readable_list.
Qed.
Lemma call_tells : forall f t ls, f <> [] -> forallb word_char f = true -> leadb (f ++ [40]) = true -> tells t ls ->
  tells (f ++ paren t) (XWord f :: bracketed ls).
Proof.
  intros f t ls NE W L T. apply tells_close in T; [|exact Hd].
  assert (B : between (f ++ [40]) [XWord f; XSym 40]).
  { split; [exact L|]. intros ts. rewrite map_app, <- app_assoc. rewrite group_word by exact W. cbn [map app]. destruct f; [contradiction|]. reflexivity. }
  pose proof (Lead _ _ _ _ B T) as Q. unfold paren. rewrite <- !app_assoc in Q. exact Q.
Qed.

(** ** Columns and orders *)
Lemma alias_ok : forall n a o nt ls, alias_said b a o -> sqlref E r n = Ok nt -> tells nt ls ->
  exists t la, aliased_str E r (n, a) = Ok t /\ tells t (ls ++ la) /\ clause_of [lit "AS"] p_column dot la o.
Proof.
  intros n a o nt ls [F S] N T.
  assert (K : a = VNone \/ a <> VNone) by (destruct a; auto; right; discriminate). destruct K as [->|K].
  - cbn in S. subst o. exists nt, []. cbn [aliased_str truthy]. rewrite app_nil_r. split; [exact N|]. split; [exact T|apply clause_none_of].
  - assert (Hn : name_ok b a) by (destruct a; try exact F; contradiction).
    assert (S' : path_of a <> None /\ o = path_of a) by (destruct a; try exact S; contradiction). destruct S' as [S1 ->].
    destruct (path_of a) as [p|] eqn:P; [|contradiction]. destruct (name_text a p Hn P) as [at_ [Ta [NE Q]]].
    unfold aliased_str. rewrite (name_truthy E a Hn), N, Ta. cbn [bind]. exists (nt ++ lit " AS " ++ at_), (XWord (lit "AS") :: path_lexemes p).
    split; [reflexivity|]. split; [exact (Mid _ _ c_sp (lit "AS ") [XWord (lit "AS")] _ _ T eq_refl (ltac:(split; reflexivity)) Q)|].
    apply (clause_some_of _ [lit "AS"]). now apply column_reads.
Qed.
Definition a_column : NP (nexpr * option path) := fun px _ => p_aliased px.
Lemma column_said : forall p y, good (fst p) -> column E p y ->
  exists t ls, aliased_str E r p = Ok t /\ tells t ls /\ (okhead ls /\ readable a_column end_alias ls y).
Proof.
  intros p y G H. inversion H as [x a e o R A]; subst. cbn [fst] in G. destruct (refers_said x e G R) as [nt [ls [N [T X]]]].
  destruct (alias_ok x a o nt ls A N T) as [t [la [S [T' C]]]]. exists t, (ls ++ la). split; [exact S|]. split; [exact T'|].
  split; [apply okhead_app; exact (proj1 X)|]. intros n m L1 L2. rewrite app_length in *. unfold a_column. apply aliased_reads; [|exact C].
  apply xreads_at; [exact X|lia].
Qed.
Lemma order_said : forall p y, good (fst p) -> ordering E p y ->
  exists t ls, order_str E r p = Ok t /\ tells t ls /\ readable an_ordered end_ordered ls y.
Proof.
  intros p y G H. inversion H as [x s e R]; subst. cbn [fst] in G. destruct (refers_said x e G R) as [nt [ls [N [T X]]]].
  destruct s; cbn [order_str on_off]; rewrite N; cbn [bind].
  - exists nt, ls. split; [reflexivity|]. split; [exact T|]. pose proof (readable_ordered ls e false X) as Q.
    unfold order_lexemes in Q. now rewrite app_nil_r in Q.
  - exists (nt ++ lit " DESC"), (order_lexemes ls true). split; [reflexivity|]. split; [|now apply readable_ordered].
    exact (Mid _ _ c_sp [] [] _ _ T eq_refl (ltac:(split; reflexivity)) (word_tells E (lit "DESC") eq_refl)).
Qed.
Lemma unnamed_said : forall p e, good (fst p) -> unnamed E p e -> xsaid (aliased_str E r p) e.
Proof. intros p e G H. inversion H as [x e' R]; subst. exact (refers_said x e G R). Qed.
Lemma orders_said : forall l ys kw w ws, Forall (fun p => good (fst p)) l -> Forall2 (ordering E) l ys ->
  between (kw ++ [c_sp]) (map XWord (w :: ws)) -> kw <> [] ->
  exists x ls o, part_ctx (negb (is_nilb l)) (orders_str E r kw l) = Ok x /\ part x ls /\
    clause_in (w :: ws) (fun px pq => p_list (an_ordered px pq)) (XSym 44 :: end_ordered) ls o /\ or_nil o = ys.
Proof.
  intros l ys kw w ws G F K NK. apply (list_said _ _ (order_str E r)); [| |exact K|exact NK].
  - induction F as [|x y l ys H F IH]; [constructor|]. inversion G; subst. constructor; [now apply order_said|auto].
  - cbn. intuition discriminate.
Qed.

(** ** Conditions *)
Lemma conj_said : forall ps ts t, Forall2 tsaid ps ts -> all_of ts = Some t ->
  exists xs ls, mapM r ps = Ok xs /\ xs <> [] /\ tells (sjoin (lit " AND ") xs) ls /\ tsays ls t.
Proof.
  intros ps ts t F. revert t. induction F as [|p t0 ps ts [tx [ls [X [T S]]]] F IH]; intros t A; [discriminate|].
  cbn [all_of] in A. destruct (all_of ts) as [u|] eqn:Au.
  - injection A as <-. destruct (IH u eq_refl) as [xs [ms [M [N [T2 S2]]]]]. exists (tx :: xs), (ls ++ XWord (lit "AND") :: ms).
    cbn [mapM]. rewrite X, M. split; [reflexivity|]. split; [discriminate|]. split; [|now apply tsays_and].
    destruct xs as [|x0 xs]; [contradiction|]. change (sjoin (lit " AND ") (tx :: x0 :: xs)) with (tx ++ lit " AND " ++ sjoin (lit " AND ") (x0 :: xs)).
    exact (Mid _ _ c_sp (lit "AND ") [XWord (lit "AND")] _ _ T eq_refl (ltac:(split; reflexivity)) T2).
  - injection A as <-. assert (Z : ts = []) by (destruct ts as [|v ts]; [reflexivity|]; cbn [all_of] in Au; destruct (all_of ts); discriminate). subst ts.
    inversion F; subst. exists [tx], ls. cbn [mapM]. rewrite X. split; [reflexivity|]. split; [discriminate|]. split; assumption.
Qed.
Lemma conjunction_said : forall ps t, Forall good ps -> conjunction E ps t ->
  exists xs ls, mapM r ps = Ok xs /\ xs <> [] /\ tells (sjoin (lit " AND ") xs) ls /\ tsays ls t.
Proof.
  intros ps t G H. inversion H as [ps' ts t' F A]; subst. apply (conj_said ps ts t); [|exact A].
  clear A H. induction F as [|p u ps ts C F IH]; [constructor|]. inversion G as [|? ? G1 G2]; subst. constructor; [now apply G1|auto].
Qed.
Lemma parts_bare : forall sep xs, xs <> [] -> parts_str [] [] sep xs = sjoin sep xs.
Proof. intros sep [|x xs] H; [contradiction|reflexivity]. Qed.
Lemma bare_conds_said : forall ps t, Forall good ps -> conjunction E ps t ->
  exists x ls, conds_str r [] ps = Ok x /\ tells x ls /\ tsays ls t.
Proof.
  intros ps t G H. destruct (conjunction_said ps t G H) as [xs [ls [M [N [T S]]]]]. exists (sjoin (lit " AND ") xs), ls.
  unfold conds_str. rewrite M. cbn [bind]. rewrite parts_bare by exact N. auto.
Qed.
Definition a_condition : NP ntest := fun px pq => p_condition px pq.
Lemma clause_said_ok : forall ps o w, Forall good ps -> clause_said E ps o -> between (w ++ [c_sp]) [XWord w] -> w <> [] ->
  exists x ls, part_ctx (negb (is_nilb ps)) (conds_str r w ps) = Ok x /\ part x ls /\ clause_in [w] a_condition (stop_at Search) ls o.
Proof.
  intros ps o w G H K NK. inversion H as [|ps' t NE C]; subst.
  - exists [], []. split; [reflexivity|]. split; [apply part_none|apply clause_in_none].
  - destruct (conjunction_said ps t G C) as [xs [ls [M [N [T S]]]]]. rewrite (nilb_false _ ps NE). cbn [negb part_ctx].
    unfold conds_str. rewrite M. cbn [bind]. eexists. exists (XWord w :: ls). split; [reflexivity|]. split.
    + apply part_some. unfold parts_str. rewrite (nilb_false _ xs N), (nilb_false _ w NK).
      pose proof (Lead _ _ _ _ K T) as Q. rewrite <- app_assoc in Q. exact Q.
    + apply (clause_in_some _ [w]). now apply tsays_condition.
Qed.

(** ** Single conditions *)
Lemma compare_said : forall ct lc e xt lx x rk o, tells ct lc -> xreads lc e -> tells xt lx -> xreads lx x -> operator_of rk = Some o ->
  tells (ct ++ lit " " ++ rel_str rk ++ lit " " ++ xt) (lc ++ op_lexemes o ++ lx) /\ tsays (lc ++ op_lexemes o ++ lx) (TCompare e o x).
Proof.
  intros ct lc e xt lx x rk o T X T' X' O. split; [|now apply tsays_compare].
  pose proof (Mid _ _ c_sp (rel_str rk ++ [c_sp]) _ _ _ T eq_refl (between_op rk o O) T') as Q.
  rewrite <- app_comm_cons, <- app_assoc in Q. exact Q.
Qed.
Lemma null_said : forall ct lc e rk o, tells ct lc -> xreads lc e -> operator_of rk = Some o ->
  tells (ct ++ lit " " ++ rel_str rk ++ lit " NULL") (lc ++ op_lexemes o ++ [XWord (lit "NULL")]) /\
  tsays (lc ++ op_lexemes o ++ [XWord (lit "NULL")]) (TCompare e o (NLiteral LNull)).
Proof.
  intros ct lc e rk o T X O. apply (compare_said ct lc e (lit "NULL") [XWord (lit "NULL")] (NLiteral LNull) rk o T X); [| |exact O].
  - now apply (word_tells E (lit "NULL")).
  - exact (xreads_literal b LNull Logic.I).
Qed.
Lemma in_said : forall ct lc neg xt lx, tells ct lc -> tells xt lx ->
  tells (ct ++ lit (if neg : bool then " NOT IN " else " IN ")%string ++ paren xt) (lc ++ in_lexemes neg ++ bracketed lx).
Proof.
  intros ct lc neg xt lx T T'. apply (tells_paren d Hd) in T'. destruct neg.
  - exact (Mid _ _ c_sp (lit "NOT IN ") [XWord (lit "NOT"); XWord (lit "IN")] _ _ T eq_refl (ltac:(split; reflexivity)) T').
  - exact (Mid _ _ c_sp (lit "IN ") [XWord (lit "IN")] _ _ T eq_refl (ltac:(split; reflexivity)) T').
Qed.
Lemma not_none_filter : forall l, not_none l = filter (fun x => negb (is_none x)) l.
Proof. induction l as [|x l IH]; [reflexivity|]. unfold not_none in *. cbn [filter]. rewrite IH. now destruct x. Qed.
Lemma no_none : forall l, existsb is_none l = false -> filter (fun x => negb (is_none x)) l = l.
Proof.
  induction l as [|x l IH]; [reflexivity|]. cbn [existsb filter]. intros H. apply orb_false_iff in H. destruct H as [H1 H2].
  rewrite H1. cbn [negb]. now rewrite IH.
Qed.
Lemma seq_said : forall l es, Forall good l -> Forall2 (values E) l es -> l <> [] ->
  exists xt lss, sqlvalue E r (VSeq KList l) = Ok (paren xt) /\ tells xt (joinx [XSym 44] lss) /\ Forall2 xreads lss es /\ lss <> [].
Proof.
  intros l es G F NE.
  assert (F' : Forall2 (fun x e => xsaid (sqlvalue E r x) e) l es).
  { clear NE. induction F as [|x e l es H F IH]; [constructor|]. inversion G; subst. constructor; [now apply values_said|auto]. }
  destruct (exprs_said (sqlvalue E r) l es F' NE) as [ts [lss [M [N [T [X N']]]]]]. exists (sjoin (lit ", ") ts), lss.
  split; [|auto]. cbn [sqlvalue]. replace (truthy (VSeq KList l)) with true by (destruct l; [contradiction|reflexivity]). now rewrite M.
Qed.
Lemma query_value : forall v q, good v -> query E v q -> exists xt ls, sqlvalue E r v = Ok (paren xt) /\ tells xt ls /\ qreads ls q.
Proof.
  intros v q [_ [G _]] Q. destruct (G q Q) as [t [ls [T [Tl R]]]]. exists t, ls. split; [|auto].
  apply query_kind in Q. destruct v; try contradiction; cbn [sqlvalue]; now rewrite T.
Qed.
Lemma cond_said : forall k c rk v t, good c -> good v -> (forall s l, v = VSeq s l -> Forall good l) ->
  condition E (VCond k c rk v) t -> tsaid (VCond k c rk v) t.
Proof.
  intros k c rk v t Gc Gv Gl H. unfold tsaid. rewrite text_unfold. cbn [str_body].
  assert (C : exists e ct lc, refers E c e /\ sqlref E r c = Ok ct /\ tells ct lc /\ xreads lc e /\ condition E (VCond k c rk v) t /\
    match t with
    | TCompare e' _ _ | TIn e' _ _ | TInSub e' _ _ | TOr (TIn e' _ _) _ | TAnd (TIn e' _ _) _ => e' = e
    | _ => True
    end).
  { inversion H; subst; match goal with R : refers E c ?e |- _ => destruct (refers_said c e Gc R) as [ct [lc [Ct [Tc Xc]]]]; exists e, ct, lc; auto 9 end. }
  destruct C as [e [ct [lc [_ [Ct [Tc [Xc [_ He]]]]]]]]. rewrite Ct.
  inversion H as [? ? ? ? e1 o x R1 O Op| ? ? s l e1 es R1 NE Nn Vs| ? ? s l e1 es R1 NE Nn Vs| ? ? s l e1 es R1 NE Nn Vs| ? ? s l e1 es R1 NE Nn Vs
    | ? ? s l e1 R1 NE Nn| ? ? s l e1 R1 NE Nn| ? ? v1 e1 q R1 Q| ? ? v1 e1 q R1 Q| | | | |]; subst; cbn match in He; subst e1.
  - (* a comparison *)
    assert (X : exists xt lx, transformer E r k v v = Ok xt /\ tells xt lx /\ xreads lx x).
    { inversion Op as [? ? ? K V|s ? R]; subst.
      - assert (Tr : transformer E r k v v = sqlvalue E r v) by (destruct k; [reflexivity|destruct v; try reflexivity; contradiction]).
        rewrite Tr. exact (values_said v x Gv V).
      - exact (refers_said (VStr s) x Gv R). }
    destruct X as [xt [lx [Xt [Tx Xx]]]]. destruct (compare_said ct lc e xt lx x rk o Tc Xc Tx Xx O) as [T S].
    assert (F : fmt_condition (Ok ct) rk (transformer E r k v) v = fmt_plain (Ok ct) rk (transformer E r k v v)) by (destruct rk; try discriminate; reflexivity).
    rewrite F. unfold fmt_plain. cbn [bind]. rewrite Xt. cbn [bind]. eauto.
  - (* IN *)
    rewrite existsb_none in Nn. destruct (seq_said l es (Gl s l eq_refl) Vs NE) as [xt [lss [Sv [Tx [Xs N']]]]].
    cbn [fmt_condition fmt_in]. rewrite transformer_seq, Nn, (no_none l Nn). unfold fmt_plain. rewrite Sv. cbn [bind].
    eexists. eexists. split; [reflexivity|]. split; [exact (in_said ct lc false xt _ Tc Tx)|]. now apply tsays_in.
  - rewrite existsb_none in Nn. destruct (seq_said l es (Gl s l eq_refl) Vs NE) as [xt [lss [Sv [Tx [Xs N']]]]].
    cbn [fmt_condition fmt_in]. rewrite transformer_seq, Nn, (no_none l Nn). unfold fmt_plain. rewrite Sv. cbn [bind].
    eexists. eexists. split; [reflexivity|]. split; [exact (in_said ct lc true xt _ Tc Tx)|]. now apply tsays_in.
  - (* IN with NULL *)
    rewrite existsb_none in Nn. rewrite not_none_filter in *.
    assert (Gf : Forall good (filter (fun x => negb (is_none x)) l)).
    { apply Forall_forall. intros z I. apply filter_In in I. specialize (Gl s l eq_refl). rewrite Forall_forall in Gl. now apply Gl. }
    destruct (seq_said _ es Gf Vs NE) as [xt [lss [Sv [Tx [Xs N']]]]].
    cbn [fmt_condition fmt_in]. rewrite transformer_seq, Nn, (nilb_false _ _ NE), Sv. cbn [bind].
    pose proof (in_said ct lc false xt _ Tc Tx) as T1. destruct (null_said ct lc e RIs CIs Tc Xc eq_refl) as [T2 S2].
    pose proof (tsays_in lc e false lss es Xc Xs N') as S1.
    pose proof (Mid _ _ c_sp (lit "OR ") [XWord (lit "OR")] _ _ T1 eq_refl (ltac:(split; reflexivity)) T2) as T3.
    apply (tells_paren d Hd) in T3. eexists. exists (bracketed ((lc ++ in_lexemes false ++ bracketed (joinx [XSym 44] lss)) ++ XWord (lit "OR") :: lc ++ op_lexemes CIs ++ [XWord (lit "NULL")])).
    split; [reflexivity|]. split; [|now apply tsays_or].
    match goal with |- tells ?s _ => match type of T3 with tells ?s' _ => replace s with s' end end; [exact T3|].
    unfold paren. rewrite <- !app_assoc. reflexivity.
  - rewrite existsb_none in Nn. rewrite not_none_filter in *.
    assert (Gf : Forall good (filter (fun x => negb (is_none x)) l)).
    { apply Forall_forall. intros z I. apply filter_In in I. specialize (Gl s l eq_refl). rewrite Forall_forall in Gl. now apply Gl. }
    destruct (seq_said _ es Gf Vs NE) as [xt [lss [Sv [Tx [Xs N']]]]].
    cbn [fmt_condition fmt_in]. rewrite transformer_seq, Nn, (nilb_false _ _ NE), Sv. cbn [bind].
    pose proof (in_said ct lc true xt _ Tc Tx) as T1. destruct (null_said ct lc e RIsNot CIsNot Tc Xc eq_refl) as [T2 S2].
    pose proof (tsays_in lc e true lss es Xc Xs N') as S1.
    pose proof (Mid _ _ c_sp (lit "AND ") [XWord (lit "AND")] _ _ T1 eq_refl (ltac:(split; reflexivity)) T2) as T3.
    apply (tells_paren d Hd) in T3. eexists. exists (bracketed ((lc ++ in_lexemes true ++ bracketed (joinx [XSym 44] lss)) ++ XWord (lit "AND") :: lc ++ op_lexemes CIsNot ++ [XWord (lit "NULL")])).
    split; [reflexivity|]. split; [|exact (tsays_bracketed _ _ (tsays_and _ _ _ _ S1 S2))].
    match goal with |- tells ?s _ => match type of T3 with tells ?s' _ => replace s with s' end end; [exact T3|].
    unfold paren. rewrite <- !app_assoc. reflexivity.
  - (* only None *)
    rewrite existsb_none in Nn. rewrite not_none_filter in *. destruct (null_said ct lc e RIs CIs Tc Xc eq_refl) as [T2 S2].
    cbn [fmt_condition fmt_in]. rewrite Nn, NE. cbn [is_nilb bind]. eexists. eexists. split; [reflexivity|]. split; [exact T2|exact S2].
  - rewrite existsb_none in Nn. rewrite not_none_filter in *. destruct (null_said ct lc e RIsNot CIsNot Tc Xc eq_refl) as [T2 S2].
    cbn [fmt_condition fmt_in]. rewrite Nn, NE. cbn [is_nilb bind]. eexists. eexists. split; [reflexivity|]. split; [exact T2|exact S2].
  - (* a subselect *)
    destruct (query_value v q Gv Q) as [xt [ls [Sv [Tx Qr]]]].
    assert (F : fmt_condition (Ok ct) RIn (transformer E r k v) v = Ok (ct ++ lit " IN " ++ paren xt)).
    { apply query_kind in Q. destruct v; try contradiction; cbn [fmt_condition fmt_in];
        (replace (transformer E r k _) with (sqlvalue E r) by (destruct k; reflexivity)); unfold fmt_plain; rewrite Sv; reflexivity. }
    rewrite F. eexists. eexists. split; [reflexivity|]. split; [exact (in_said ct lc false xt _ Tc Tx)|]. now apply tsays_in_sub.
  - destruct (query_value v q Gv Q) as [xt [ls [Sv [Tx Qr]]]].
    assert (F : fmt_condition (Ok ct) RNotIn (transformer E r k v) v = Ok (ct ++ lit " NOT IN " ++ paren xt)).
    { apply query_kind in Q. destruct v; try contradiction; cbn [fmt_condition fmt_in];
        (replace (transformer E r k _) with (sqlvalue E r) by (destruct k; reflexivity)); unfold fmt_plain; rewrite Sv; reflexivity. }
    rewrite F. eexists. eexists. split; [reflexivity|]. split; [exact (in_said ct lc true xt _ Tc Tx)|]. now apply tsays_in_sub.
Qed.
Lemma bracket_said : forall x t, tsaid x t -> exists tx ls, r x = Ok tx /\ tells (bracket x tx) ls /\ tsays ls t.
Proof.
  intros x t [tx [ls [X [T S]]]]. exists tx. unfold bracket. destruct (needs_brackets x).
  - exists (bracketed ls). split; [exact X|]. split; [now apply (tells_paren d Hd)|now apply tsays_bracketed].
  - exists ls. auto.
Qed.
Lemma condition_step : forall x, (forall y, (depth y < depth x)%nat -> good y) -> forall t, condition E x t -> tsaid x t.
Proof.
  intros x IH t H.
  assert (Ch : forall y, In y (children x) -> good y) by (intros y I; apply IH, children_depth, I).
  assert (One : forall k c rk v, x = VCond k c rk v -> tsaid x t).
  { intros k c rk v ->. apply cond_said; [apply Ch; cbn; auto|apply Ch; cbn; auto| |exact H].
    intros s l ->. apply Forall_forall. intros y I. apply IH.
    pose proof (children_depth (VSeq s l) y I) as D1. pose proof (children_depth (VCond k c rk (VSeq s l)) (VSeq s l) (or_intror (or_introl eq_refl))) as D2.
    lia. }
  inversion H; subst; try (eapply One; reflexivity); clear One.
  - (* EXISTS *)
    match goal with Q : query E v q |- _ => rename Q into Hq end. destruct (Ch v (or_introl eq_refl)) as [_ [G _]].
    destruct (G q Hq) as [tx [ls [T [Tl R]]]]. unfold tsaid. rewrite text_unfold. cbn [str_body]. rewrite T. cbn [bind].
    exists (lit "EXISTS" ++ paren tx), (XWord (lit "EXISTS") :: bracketed ls). split; [reflexivity|]. split; [|now apply tsays_exists].
    apply call_tells; auto. discriminate.
  - (* Q(...) *)
    assert (G : Forall good ps) by (apply Forall_forall; exact Ch).
    destruct (bare_conds_said ps t G ltac:(assumption)) as [tx [ls [T [Tl S]]]]. exists tx, ls. rewrite text_unfold. auto.
  - (* NOT *)
    assert (G : Forall good ps) by (apply Forall_forall; exact Ch).
    match goal with C : conjunction E ps _ |- _ => destruct (bare_conds_said ps _ G C) as [tx [ls [T [Tl S]]]] end.
    unfold tsaid. rewrite text_unfold. cbn [str_body]. rewrite T. cbn [bind].
    exists (lit "NOT" ++ paren tx), (XWord (lit "NOT") :: bracketed ls). split; [reflexivity|]. split; [|now apply tsays_not].
    apply call_tells; auto. discriminate.
  - (* AND *)
    match goal with A : condition E x0 ?t0, B : condition E y ?u |- _ =>
      destruct (bracket_said x0 t0) as [tx [ls [X [Tx Sx]]]]; [apply Ch; cbn; auto|];
      destruct (bracket_said y u) as [ty [ms [Y [Ty Sy]]]]; [apply Ch; cbn; auto|] end.
    unfold tsaid. rewrite text_unfold. cbn [str_body]. rewrite X, Y. cbn [bind bop_str].
    pose proof (Mid _ _ c_sp (lit "AND ") [XWord (lit "AND")] _ _ Tx eq_refl (ltac:(split; reflexivity)) Ty) as Q. apply (tells_paren d Hd) in Q.
    eexists. exists (bracketed (ls ++ XWord (lit "AND") :: ms)). split; [reflexivity|]. split; [exact Q|]. now apply tsays_bracketed, tsays_and.
  - match goal with A : condition E x0 ?t0, B : condition E y ?u |- _ =>
      destruct (bracket_said x0 t0) as [tx [ls [X [Tx Sx]]]]; [apply Ch; cbn; auto|];
      destruct (bracket_said y u) as [ty [ms [Y [Ty Sy]]]]; [apply Ch; cbn; auto|] end.
    unfold tsaid. rewrite text_unfold. cbn [str_body]. rewrite X, Y. cbn [bind bop_str].
    pose proof (Mid _ _ c_sp (lit "OR ") [XWord (lit "OR")] _ _ Tx eq_refl (ltac:(split; reflexivity)) Ty) as Q. apply (tells_paren d Hd) in Q.
    eexists. exists (bracketed (ls ++ XWord (lit "OR") :: ms)). split; [reflexivity|]. split; [exact Q|]. now apply tsays_or.
Qed.
End Vals.
