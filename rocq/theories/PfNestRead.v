(** Proofs for C60-C61: the parser of SpecNested.v: expressions and conditions. *)
From Coq Require Import Lia.
From Verif Require Import Base BaseFacts NumFmt Value SpecLex SpecRef SpecRead SpecLogic BoolFacts LiteralFacts SpecWhole
  SpecSql SpecServer SpecNested PfSql PfSqlParse PfSqlCond PfSqlClauses PfSqlStmt.
Open Scope N_scope.

(** The rest is empty, begins with a closing bracket or with one of these words. *)
Definition ends (K : list str) (l : list lexeme) : Prop := starts K l \/ exists u, l = XSym 41 :: u.
Definition closing (x : lexeme) : bool := match x with XSym c => c =? 41 | _ => false end.
Lemma ends_stops : forall K bad l, ends K l -> avoids K bad && negb (existsb closing bad) = true -> stops bad l.
Proof.
  intros K bad l [S|[u ->]] A; apply andb_true_iff in A; destruct A as [A B].
  - now apply (starts_stops K).
  - intros X. apply negb_true_iff in B.
    assert (Y : existsb closing bad = true) by (apply existsb_exists; exists (XSym 41); split; [exact X|reflexivity]). congruence.
Qed.
Lemma ends_app : forall K K' l m, starts K l -> ends K' m -> ends (K ++ K') (l ++ m).
Proof.
  intros K K' l m S [M|[u ->]].
  - left. now apply starts_app.
  - destruct S as [->|[w [v [-> I]]]]; [right; now exists u|left]. cbn [app]. apply starts_word, in_or_app. now left.
Qed.
Lemma ends_incl : forall K K' l, incl K K' -> ends K l -> ends K' l.
Proof. intros K K' l H [[->|[w [u [-> I]]]]|[u ->]]; [left; now left|left; apply starts_word; auto|right; now exists u]. Qed.

(** What expressions begin with. *)
Definition reserved : list str := lit "NOT" :: lit "EXISTS" :: lit "SELECT" :: select_options.
Definition okhead (ls : list lexeme) : Prop :=
  match ls with
  | XStr _ :: _ | XId _ :: _ => True
  | XWord w :: _ => existsb (seqb w) reserved = false
  | XSym c :: r => c = 42 \/ c = 45 \/ (c = 40 /\ exists u, r = XWord (lit "SELECT") :: u)
  | _ => False
  end.
Lemma okhead_app : forall ls rest, okhead ls -> okhead (ls ++ rest).
Proof.
  intros [|[s|s|w|c|] ls] rest H; try contradiction; try exact H.
  cbn in *. destruct H as [H|[H|[H [u ->]]]]; auto. right. right. split; [exact H|]. eexists. reflexivity.
Qed.
Lemma seqb_neq_of : forall w v l, existsb (seqb w) l = false -> In v l -> seqb w v = false.
Proof.
  intros w v l H I. destruct (seqb w v) eqn:X; [|reflexivity].
  assert (Y : existsb (seqb w) l = true) by (apply existsb_exists; eauto). congruence.
Qed.
Lemma okhead_keyword : forall w ls, okhead ls -> In w reserved -> keyword w ls = None.
Proof.
  intros w [|[s|s|v|c|] ls] H I; try contradiction; try reflexivity. cbn [keyword]. now rewrite (seqb_neq_of v w reserved H I).
Qed.
Lemma okhead_sym : forall c ls, okhead ls -> c <> 42 -> c <> 45 -> c <> 40 -> sym c ls = None.
Proof.
  intros c [|[s|s|v|x|] ls] H N1 N2 N3; try contradiction; try reflexivity. cbn [sym].
  destruct (N.eqb_spec x c) as [->|]; [|reflexivity]. destruct H as [H|[H|[H _]]]; contradiction.
Qed.

(** ** Expressions and queries of bounded length *)
Definition NP (A : Type) := parser nexpr -> parser nquery -> parser A.
Definition within {A} (k : nat) (P : NP A) (bad ls : list lexeme) (x : A) : Prop :=
  forall n m, (k <= n)%nat -> (k <= S m)%nat -> reads (P (fst (nested n)) (snd (nested m))) bad ls x.
Definition readable {A} (P : NP A) (bad ls : list lexeme) (x : A) : Prop := within (List.length ls) P bad ls x.
Lemma within_mono : forall A k k' (P : NP A) bad ls x, (k <= k')%nat -> within k P bad ls x -> within k' P bad ls x.
Proof. intros A k k' P bad ls x L W n m H1 H2. apply W; lia. Qed.
Definition an_expr : NP nexpr := fun px _ => px.
Definition xreads (ls : list lexeme) (e : nexpr) : Prop := okhead ls /\ readable an_expr dot ls e.
(** A query, before the end or a closing bracket. *)
Definition qreads (ls : list lexeme) (q : nquery) : Prop :=
  (exists u, ls = XWord (lit "SELECT") :: u) /\
  forall n m, (List.length ls <= n)%nat -> (List.length ls <= S m)%nat -> forall rest, ends [] rest ->
  p_query (fst (nested n)) (snd (nested m)) (ls ++ rest) = Some (q, rest).
Definition bracketed (ls : list lexeme) : list lexeme := XSym 40 :: ls ++ [XSym 41].
Lemma bracketed_length : forall ls, List.length (bracketed ls) = S (S (List.length ls)).
Proof. intros ls. unfold bracketed. cbn [List.length]. rewrite app_length. cbn. lia. Qed.
Lemma sub_reads : forall ls q m, qreads ls q -> (List.length (bracketed ls) <= S m)%nat ->
  reads (p_sub (snd (nested m))) [] (bracketed ls) q.
Proof.
  intros ls q m [[u U] R] L. rewrite bracketed_length in L. destruct m as [|m]; [lia|]. split; [discriminate|].
  intros rest _. unfold p_sub, bracketed. cbn [app sym]. change (40 =? 40) with true. cbv iota. rewrite <- app_assoc. cbn [app].
  assert (K : keyword (lit "SELECT") (ls ++ XSym 41 :: rest) = Some (u ++ XSym 41 :: rest)) by (rewrite U; reflexivity).
  rewrite K. change (snd (nested (S m))) with (p_query (fst (nested (S m))) (snd (nested m))).
  rewrite R; [reflexivity|lia|lia|right; now exists rest].
Qed.
Lemma sub_none : forall pq ls, okhead ls -> (forall u, ls <> XSym 40 :: u) -> p_sub pq ls = None.
Proof.
  intros pq [|[s|s|v|c|] ls] H N; try reflexivity. unfold p_sub. cbn [sym]. destruct (N.eqb_spec c 40) as [->|]; [|reflexivity].
  now destruct (N ls).
Qed.

Section Expr.
Context (px : parser nexpr) (pq : parser nquery).
Lemma column_nexpr : forall p, p <> [] -> reads (p_nexpr px pq) dot (path_lexemes p) (NColumn p).
Proof.
  intros p NE. destruct (column_reads p NE) as [N R]. split; [exact N|]. intros rest S. specialize (R rest S). unfold p_nexpr.
  destruct (path_first p rest NE) as [x [u [X K]]]. rewrite X in *. rewrite (path_literal x u K). destruct K as [[s ->]| ->]; unfold p_sub; cbn [sym].
  - now rewrite R.
  - change (42 =? 40) with false. cbv iota. now rewrite R.
Qed.
Lemma literal_nexpr : forall b l, literal_good l -> reads (p_nexpr px pq) dot (literal_lexemes b l) (NLiteral l).
Proof.
  intros b l G. destruct (literal_reads b l G) as [N R]. split; [exact N|]. intros rest S. unfold p_nexpr.
  rewrite R by exact S. reflexivity.
Qed.
Lemma call_head : forall f u, known f -> p_literal (XWord f :: XSym 40 :: u) = None.
Proof. intros f u [K _]. now apply call_literal. Qed.
Lemma call_nexpr : forall f d lss es, known f -> f <> lit "GROUP_CONCAT" -> f <> lit "CONVERT" ->
  Forall2 (reads px dot) lss es -> lss <> [] -> Forall okhead lss ->
  reads (p_nexpr px pq) [] (XWord f :: bracketed ((if d : bool then [XWord (lit "DISTINCT")] else []) ++ joinx [XSym 44] lss)) (NCall f d es).
Proof.
  intros f d lss es K N1 N2 F NE H. split; [discriminate|]. intros rest _. unfold bracketed. cbn [app]. rewrite <- !app_assoc.
  destruct (list_reads _ px dot _ _ F NE (ltac:(cbn; intuition discriminate))) as [_ R].
  specialize (R ([XSym 41] ++ rest) (ltac:(cbn; intuition discriminate))).
  unfold p_nexpr. rewrite (call_head f ((if d then [XWord (lit "DISTINCT")] else []) ++ joinx [XSym 44] lss ++ [XSym 41] ++ rest) K).
  unfold p_sub. cbn [sym]. change (40 =? 40) with true. cbv iota.
  apply seqb_neq in N1, N2. rewrite N1, N2.
  assert (G : p_flag [lit "DISTINCT"] ((if d then [XWord (lit "DISTINCT")] else []) ++ joinx [XSym 44] lss ++ [XSym 41] ++ rest) = Some (d, joinx [XSym 44] lss ++ [XSym 41] ++ rest)).
  2:{ rewrite G, R. reflexivity. }
  apply (flag_reads (lit "DISTINCT") [] d (joinx [XSym 44] lss ++ [XSym 41] ++ rest)).
  - destruct lss as [|l lss]; [contradiction|]. inversion H as [|? ? H1 _]; subst.
    destruct l as [|x l]; [contradiction|]. destruct (joinx_first [XSym 44] x l lss) as [v ->]. cbn [app].
    intros [X|[]]. subst x. cbn in H1. discriminate.
Qed.
Lemma convert_nexpr : forall ls e ty, reads px dot ls e ->
  reads (p_nexpr px pq) [] (XWord (lit "CONVERT") :: bracketed (ls ++ [XSym 44; XWord ty])) (NConvert e ty).
Proof.
  intros ls e ty [N R]. split; [discriminate|]. intros rest _. unfold bracketed. cbn [app]. rewrite <- !app_assoc. cbn [app].
  specialize (R (XSym 44 :: XWord ty :: XSym 41 :: rest) (ltac:(cbn; intuition discriminate))).
  unfold p_nexpr. rewrite (call_head (lit "CONVERT") (ls ++ XSym 44 :: XWord ty :: XSym 41 :: rest)) by (split; [reflexivity|]; split; [discriminate|reflexivity]).
  unfold p_sub. cbn [sym]. change (40 =? 40) with true. cbv iota.
  change (seqb (lit "CONVERT") (lit "GROUP_CONCAT")) with false. change (seqb (lit "CONVERT") (lit "CONVERT")) with true. cbv iota.
  rewrite R. reflexivity.
Qed.
Definition end_ordered := [XSym 46; XWord (lit "DESC")].
Definition order_lexemes (ls : list lexeme) (desc : bool) : list lexeme := ls ++ (if desc then [XWord (lit "DESC")] else []).
Lemma ordered_reads : forall ls e (desc : bool), reads px dot ls e -> reads (p_ordered px) end_ordered (order_lexemes ls desc) (e, desc).
Proof.
  intros ls e desc [N R]. unfold order_lexemes. split; [destruct ls; [contradiction|discriminate]|]. intros rest S. unfold p_ordered.
  rewrite <- app_assoc. destruct desc.
  - rewrite R by (cbn; intuition discriminate). cbn [app keyword]. now rewrite seqb_refl.
  - cbn [app]. rewrite R by (eapply stops_incl; [|exact S]; intros y; cbn; tauto).
    now rewrite (keyword_stop (lit "DESC") end_ordered) by (simpl; auto).
Qed.
Lemma group_concat_nexpr : forall lss es lo os ls s, Forall2 (reads px dot) lss es -> lss <> [] ->
  clause_of [lit "ORDER"; lit "BY"] (p_list (p_ordered px)) (XSym 44 :: end_ordered) lo os -> clause_of [lit "SEPARATOR"] px dot ls s ->
  reads (p_nexpr px pq) [] (XWord (lit "GROUP_CONCAT") :: bracketed (joinx [XSym 44] lss ++ lo ++ ls)) (NGroupConcat es (or_nil os) s).
Proof.
  intros lss es lo os ls s F NE Co Cs. split; [discriminate|]. intros rest _. unfold bracketed. cbn [app]. rewrite <- !app_assoc. cbn [app].
  destruct (list_reads _ px dot _ _ F NE (ltac:(cbn; intuition discriminate))) as [_ R].
  assert (S3 : ends [] (XSym 41 :: rest)) by (right; now exists rest).
  pose proof (ends_app _ _ _ _ (clause_starts _ _ _ _ _ _ _ Cs) S3) as S2.
  pose proof (ends_app _ _ _ _ (clause_starts _ _ _ _ _ _ _ Co) S2) as S1.
  unfold p_nexpr. rewrite (call_head (lit "GROUP_CONCAT") (joinx [XSym 44] lss ++ lo ++ ls ++ XSym 41 :: rest)) by (split; [reflexivity|]; split; [discriminate|reflexivity]).
  unfold p_sub. cbn [sym]. change (40 =? 40) with true. cbv iota.
  change (seqb (lit "GROUP_CONCAT") (lit "GROUP_CONCAT")) with true. cbv iota.
  rewrite R by (eapply ends_stops; [exact S1|reflexivity]).
  rewrite (clause_reads _ _ _ _ _ _ _ _ Co) by (eapply ends_stops; [exact S2|reflexivity]).
  rewrite (clause_reads _ _ _ _ _ _ _ _ Cs) by (eapply ends_stops; [exact S3|reflexivity]).
  reflexivity.
Qed.
Lemma sub_nexpr : forall ls q, (exists u, ls = XWord (lit "SELECT") :: u) -> reads (p_sub pq) [] (bracketed ls) q ->
  reads (p_nexpr px pq) [] (bracketed ls) (NSub q).
Proof.
  intros ls q [u ->] [N R]. split; [discriminate|]. intros rest S. specialize (R rest S). unfold p_nexpr. rewrite R. reflexivity.
Qed.

(** ** Conditions *)
Definition parses (l : level) (ls : list lexeme) (e : ntest) : Prop :=
  ls <> [] /\ forall n rest, (3 * List.length ls + rank l <= n)%nat -> stops (stop_at l) rest ->
  p_ntest px pq n l (ls ++ rest) = Some (e, rest).
Lemma comparison_parses : forall ls e, reads (p_comparison px pq) dot ls e -> okhead ls -> parses Factor ls e.
Proof.
  intros ls e [NE R] H. split; [exact NE|]. intros n rest L S. destruct n as [|n]; [cbn in L; lia|].
  specialize (R rest S). cbn [p_ntest]. pose proof (okhead_app ls rest H) as K.
  rewrite !(okhead_keyword _ _ K) by (cbn; auto).
  destruct (ls ++ rest) as [|[s|s|v|c|] u]; try exact R. cbn [sym]. destruct (N.eqb_spec c 40) as [->|]; [|exact R].
  destruct K as [K|[K|[_ [u' ->]]]]; try discriminate. cbn [keyword]. rewrite seqb_refl. exact R.
Qed.
Lemma paren_parses : forall ls e, parses Search ls e -> (forall u, ls <> XWord (lit "SELECT") :: u) -> parses Factor (bracketed ls) e.
Proof.
  intros ls e [NE P] H. split; [discriminate|]. intros n rest L S. rewrite bracketed_length in L. cbn [rank] in L.
  destruct n as [|n]; [lia|]. unfold bracketed. cbn [p_ntest app keyword sym]. change (40 =? 40) with true. cbv iota.
  assert (K : keyword (lit "SELECT") ((ls ++ [XSym 41]) ++ rest) = None).
  { destruct ls as [|[s|s|v|c|] ls]; try reflexivity. cbn [app keyword]. destruct (seqb v (lit "SELECT")) eqn:X; [|reflexivity].
    apply seqb_eq in X. subst v. now destruct (H ls). }
  rewrite K, <- app_assoc. rewrite P; [reflexivity|cbn; lia|]. cbn. intuition discriminate.
Qed.
Lemma not_parses : forall ls e, parses Factor ls e -> parses Factor (XWord (lit "NOT") :: ls) (TNot e).
Proof.
  intros ls e [NE P]. split; [discriminate|]. intros n rest L S. cbn [List.length rank] in L.
  destruct n as [|n]; [lia|]. cbn [p_ntest app keyword]. rewrite seqb_refl. rewrite P; [reflexivity|cbn; lia|exact S].
Qed.
Lemma exists_parses : forall ls q, reads (p_sub pq) [] ls q -> parses Factor (XWord (lit "EXISTS") :: ls) (TExists q).
Proof.
  intros ls q [NE R]. split; [discriminate|]. intros n rest L S. cbn [List.length rank] in L.
  destruct n as [|n]; [lia|]. cbn [p_ntest app keyword]. change (seqb (lit "EXISTS") (lit "NOT")) with false.
  change (seqb (lit "EXISTS") (lit "EXISTS")) with true. cbv iota. rewrite R by apply stops_nil. reflexivity.
Qed.

Inductive term : list lexeme -> ntest -> Prop :=
| t_one : forall ls e, parses Factor ls e -> term ls e
| t_and : forall ls e ms f, parses Factor ls e -> term ms f -> term (ls ++ XWord (lit "AND") :: ms) (and_then e f).
Lemma term_parses : forall ls e, term ls e -> parses Term ls e.
Proof.
  intros ls e T. induction T as [ls e [NE P]|ls e ms f [NE P] T [NE' IH]].
  - split; [exact NE|]. intros n rest L S. cbn [rank] in L. destruct n as [|n]; [lia|]. cbn [p_ntest].
    rewrite P; [|cbn; lia|eapply stops_incl; [|exact S]; intros y; simpl; auto].
    now rewrite (keyword_stop (lit "AND") (stop_at Term)) by (simpl; auto).
  - split; [now destruct ls|]. intros n rest L S. rewrite app_length in L. cbn [List.length rank] in L.
    destruct n as [|n]; [lia|]. cbn [p_ntest]. rewrite <- app_assoc. cbn [app].
    rewrite P; [|cbn; lia|cbn; intuition discriminate]. cbn [keyword]. rewrite seqb_refl.
    rewrite IH; [reflexivity|cbn; lia|exact S].
Qed.
Lemma and_then_assoc : forall a b c, and_then (and_then a b) c = and_then a (and_then b c).
Proof.
  fix IH 1. intros a b c. destruct a; cbn [and_then]; try reflexivity. f_equal. apply IH.
Qed.
Lemma term_app : forall ls e, term ls e -> forall ms f, term ms f -> term (ls ++ XWord (lit "AND") :: ms) (and_then e f).
Proof.
  intros ls e T. induction T as [ls e P|ls e ms f P T IH]; intros ns g Tn.
  - now apply t_and.
  - rewrite and_then_assoc, <- app_assoc. cbn [app]. apply t_and; auto.
Qed.
Lemma term_search : forall ls e, term ls e -> parses Search ls e.
Proof.
  intros ls e T. destruct (term_parses ls e T) as [NE P]. split; [exact NE|]. intros n rest L S. cbn [rank] in L.
  destruct n as [|n]; [lia|]. cbn [p_ntest]. rewrite P; [|cbn; lia|eapply stops_incl; [|exact S]; intros y; simpl; auto].
  now rewrite (keyword_stop (lit "OR") (stop_at Search)) by (simpl; auto).
Qed.
Lemma or_search : forall ls e ms f, term ls e -> term ms f -> parses Search (ls ++ XWord (lit "OR") :: ms) (TOr e f).
Proof.
  intros ls e ms f T T'. destruct (term_parses ls e T) as [NE P]. destruct (term_search ms f T') as [NE' P'].
  split; [now destruct ls|]. intros n rest L S. rewrite app_length in L. cbn [List.length rank] in L.
  destruct n as [|n]; [lia|]. cbn [p_ntest]. rewrite <- app_assoc. cbn [app].
  rewrite P; [|cbn; lia|cbn; intuition discriminate]. cbn [keyword]. rewrite seqb_refl.
  rewrite P'; [reflexivity|cbn; lia|exact S].
Qed.
Lemma condition_reads : forall ls e, term ls e -> reads (p_condition px pq) (stop_at Search) ls e.
Proof.
  intros ls e T. destruct (term_search ls e T) as [NE P]. split; [exact NE|]. intros rest S. unfold p_condition. apply P; [|exact S].
  rewrite app_length. cbn [rank]. lia.
Qed.

Lemma compare_parses : forall lc e o lx x, reads px dot lc e -> okhead lc -> reads px dot lx x -> okhead lx ->
  parses Factor (lc ++ op_lexemes o ++ lx) (TCompare e o x).
Proof.
  intros lc e o lx x [NE R] H [NE' R'] H'. apply comparison_parses; [|now apply okhead_app].
  split; [destruct lc; [contradiction|discriminate]|]. intros rest S. unfold p_comparison.
  rewrite <- !app_assoc. rewrite R by (destruct o; cbn; intuition discriminate).
  specialize (R' rest S). pose proof (okhead_app lx rest H') as K.
  destruct (lx ++ rest) as [|y u] eqn:X; [contradiction|].
  destruct (operator_reads o y u) as [P Q].
  - intros ->. destruct K as [K|[K|[K _]]]; discriminate.
  - intros ->. discriminate K.
  - rewrite Q, P, R'. reflexivity.
Qed.
Lemma in_parses : forall lc e (neg : bool) lss es, reads px dot lc e -> okhead lc -> Forall2 (reads px dot) lss es -> lss <> [] -> Forall okhead lss ->
  parses Factor (lc ++ in_lexemes neg ++ bracketed (joinx [XSym 44] lss)) (TIn e neg es).
Proof.
  intros lc e neg lss es [NE R] H F NL Hl. apply comparison_parses; [|now apply okhead_app].
  split; [destruct lc; [contradiction|discriminate]|]. intros rest S. unfold p_comparison.
  rewrite <- !app_assoc. rewrite R by (destruct neg; cbn; intuition discriminate).
  assert (I : forall u, in_list (in_lexemes neg ++ u) = Some (neg, u)) by (destruct neg; reflexivity). rewrite I.
  destruct (bracketed_reads _ px dot _ _ F NL) as [_ R']; [cbn; intuition discriminate|cbn; intuition discriminate|].
  specialize (R' rest (stops_nil rest)).
  assert (Z : p_sub pq (bracketed (joinx [XSym 44] lss) ++ rest) = None).
  { unfold p_sub, bracketed. cbn [app sym]. change (40 =? 40) with true. cbv iota.
    destruct lss as [|l lss]; [contradiction|]. inversion Hl as [|? ? H1 _]; subst. destruct l as [|y l]; [contradiction|].
    destruct (joinx_first [XSym 44] y l lss) as [v ->]. cbn [app].
    assert (K : keyword (lit "SELECT") (y :: (v ++ [XSym 41]) ++ rest) = None).
    { destruct y as [s|s|w|c|]; try reflexivity. cbn [keyword]. now rewrite (seqb_neq_of w (lit "SELECT") reserved H1) by (cbn; auto). }
    now rewrite K. }
  rewrite Z. fold (bracketed (joinx [XSym 44] lss)) in R'. now rewrite R'.
Qed.
Lemma in_sub_parses : forall lc e (neg : bool) ls q, reads px dot lc e -> okhead lc -> reads (p_sub pq) [] (bracketed ls) q ->
  parses Factor (lc ++ in_lexemes neg ++ bracketed ls) (TInSub e neg q).
Proof.
  intros lc e neg ls q [NE R] H [NS Rs]. apply comparison_parses; [|now apply okhead_app].
  split; [destruct lc; [contradiction|discriminate]|]. intros rest S. unfold p_comparison.
  rewrite <- !app_assoc. rewrite R by (destruct neg; cbn; intuition discriminate).
  assert (I : forall u, in_list (in_lexemes neg ++ u) = Some (neg, u)) by (destruct neg; reflexivity). rewrite I.
  now rewrite Rs by apply stops_nil.
Qed.
End Expr.
