(** Proofs for C60-C61: expressions and conditions as text. *)
From Coq Require Import Lia Permutation.
From Verif Require Import Base BaseFacts NumFmt Value Regex Backend Eq Render RenderFacts
  SpecLex SpecRef SpecRead SpecLogic SpecConds BoolFacts PfBool RefFacts LiteralFacts PfLiterals PfHistories SpecWhole PfWhole PfWholeText
  PfWholeClauses PfStatements SpecClauses PfClauses SpecSql SpecServer PfSql PfSqlParse PfSqlCond PfSqlClauses PfSqlStmt
  SpecNested SpecSays PfNestRead PfNestQuery.
Open Scope N_scope.

(** ** Readers of bounded length *)
Lemma xreads_intro : forall ls bad e, okhead ls -> incl bad dot ->
  (forall n, (List.length ls <= S n)%nat -> reads (p_nexpr (fst (nested n)) (snd (nested n))) bad ls e) -> xreads ls e.
Proof.
  intros ls bad e H I R. split; [exact H|]. intros n m L _. destruct n as [|n]; [destruct ls; [contradiction|cbn in L; lia]|].
  destruct (R n L) as [N Q]. split; [exact N|]. intros rest S. apply Q. eapply stops_incl; [|exact S].
  exact I.
Qed.
Lemma xreads_at : forall ls e n, xreads ls e -> (List.length ls <= n)%nat -> reads (fst (nested n)) dot ls e.
Proof. intros ls e n [_ R] L. apply (R n n); lia. Qed.
Lemma xreads_all : forall lss es n, Forall2 xreads lss es -> Forall (fun ls => List.length ls <= n)%nat lss -> Forall2 (reads (fst (nested n)) dot) lss es.
Proof. intros lss es n F. induction F as [|l e lss es H F IH]; intros L; [constructor|]. inversion L; subst. constructor; [now apply xreads_at|auto]. Qed.
Lemma xreads_heads : forall lss es, Forall2 xreads lss es -> Forall okhead lss.
Proof. intros lss es F. induction F as [|l e lss es [H _] F IH]; constructor; auto. Qed.
Lemma joinx_part : forall sep lss, Forall (fun ls => List.length ls <= List.length (joinx sep lss))%nat lss.
Proof.
  intros sep. induction lss as [|l lss IH]; [constructor|]. destruct lss as [|m lss].
  - constructor; [cbn; lia|constructor].
  - change (joinx sep (l :: m :: lss)) with (l ++ sep ++ joinx sep (m :: lss)). rewrite !app_length. constructor; [lia|].
    eapply Forall_impl; [|exact IH]. cbn beta. intros x L. lia.
Qed.
Lemma joinx_parts : forall sep lss k, (List.length (joinx sep lss) <= k)%nat -> Forall (fun ls => List.length ls <= k)%nat lss.
Proof. intros sep lss k L. eapply Forall_impl; [|apply (joinx_part sep)]. cbn beta. intros x Lx. lia. Qed.
Lemma readable_list : forall A (P : NP A) bad lss ys, Forall2 (readable P bad) lss ys -> lss <> [] -> ~ In (XSym 44) bad ->
  readable (fun px pq => p_list (P px pq)) (XSym 44 :: bad) (joinx [XSym 44] lss) ys.
Proof.
  intros A P bad lss ys F NE B n m L1 L2. apply list_reads; [|exact NE|exact B].
  pose proof (joinx_parts _ _ _ L1) as K1. pose proof (joinx_parts _ _ _ L2) as K2. clear L1 L2 NE.
  induction F as [|l y lss ys H F IH]; [constructor|]. inversion K1; inversion K2; subst. constructor; [now apply H|auto].
Qed.
(** A clause: missing, or keywords and a body. *)
Definition clause_in {A} (kws : list str) (P : NP A) (bad ls : list lexeme) (o : option A) : Prop :=
  (ls = [] /\ o = None) \/ exists body y, ls = map XWord kws ++ body /\ o = Some y /\ readable P bad body y.
Lemma clause_at : forall A kws (P : NP A) bad ls o n m, clause_in kws P bad ls o -> (List.length ls <= n)%nat -> (List.length ls <= S m)%nat ->
  clause_of kws (P (fst (nested n)) (snd (nested m))) bad ls o.
Proof.
  intros A kws P bad ls o n m [[-> ->]|[body [y [-> [-> R]]]]] L1 L2; [apply clause_none_of|]. apply clause_some_of.
  rewrite app_length in *. apply R; lia.
Qed.
Lemma clause_in_none : forall A kws (P : NP A) bad, clause_in kws P bad [] None.
Proof. intros. now left. Qed.
Lemma clause_in_some : forall A kws (P : NP A) bad body y, readable P bad body y -> clause_in kws P bad (map XWord kws ++ body) (Some y).
Proof. intros. right. eauto. Qed.

(** A condition. *)
Definition tsays (ls : list lexeme) (t : ntest) : Prop :=
  ls <> [] /\ (forall u, ls <> XWord (lit "SELECT") :: u) /\
  forall n m, (List.length ls <= n)%nat -> (List.length ls <= S m)%nat -> term (fst (nested n)) (snd (nested m)) ls t.
Lemma tsays_and : forall ls t ms u, tsays ls t -> tsays ms u -> tsays (ls ++ XWord (lit "AND") :: ms) (and_then t u).
Proof.
  intros ls t ms u [N1 [S1 T1]] [N2 [S2 T2]]. split; [destruct ls; discriminate|]. split.
  - intros v X. destruct ls as [|x ls]; [contradiction|]. cbn [app] in X. injection X as -> _. now apply (S1 ls).
  - intros n m L1 L2. rewrite app_length in *. cbn [List.length] in *. apply term_app; [apply T1|apply T2]; lia.
Qed.
Lemma tsays_bracketed : forall ls t, tsays ls t -> tsays (bracketed ls) t.
Proof.
  intros ls t [N [S T]]. split; [discriminate|]. split; [discriminate|]. intros n m L1 L2. rewrite bracketed_length in *.
  apply t_one, paren_parses; [|exact S]. apply term_search, T; lia.
Qed.
Lemma tsays_or : forall ls t ms u, tsays ls t -> tsays ms u -> tsays (bracketed (ls ++ XWord (lit "OR") :: ms)) (TOr t u).
Proof.
  intros ls t ms u [N1 [S1 T1]] [N2 [S2 T2]]. split; [discriminate|]. split; [discriminate|]. intros n m L1 L2.
  rewrite bracketed_length in *. rewrite app_length in *. cbn [List.length] in *. apply t_one, paren_parses.
  - apply or_search; [apply T1|apply T2]; lia.
  - intros v X. destruct ls as [|x ls]; [contradiction|]. cbn [app] in X. injection X as -> _. now apply (S1 ls).
Qed.
Lemma tsays_not : forall ls t, tsays ls t -> tsays (XWord (lit "NOT") :: bracketed ls) (TNot t).
Proof.
  intros ls t [N [S T]]. split; [discriminate|]. split; [intros u X; discriminate|]. intros n m L1 L2.
  cbn [List.length] in *. rewrite bracketed_length in *. apply t_one, not_parses, paren_parses; [|exact S]. apply term_search, T; lia.
Qed.
Lemma tsays_condition : forall ls t, tsays ls t -> readable (fun px pq => p_condition px pq) (stop_at Search) ls t.
Proof. intros ls t [N [S T]] n m L1 L2. apply condition_reads, T; assumption. Qed.
Lemma okhead_not_select : forall ls rest u, okhead ls -> ls ++ rest <> XWord (lit "SELECT") :: u.
Proof. intros ls rest u H X. pose proof (okhead_app ls rest H) as K. rewrite X in K. discriminate K. Qed.
Lemma tsays_compare : forall lc e o lx x, xreads lc e -> xreads lx x -> tsays (lc ++ op_lexemes o ++ lx) (TCompare e o x).
Proof.
  intros lc e o lx x X Y. pose proof (proj1 X) as H. split; [destruct lc; [contradiction|discriminate]|].
  split; [intros u; now apply okhead_not_select|]. intros n m L1 L2. rewrite !app_length in *.
  apply t_one, compare_parses; [apply xreads_at; [exact X|lia]|exact H|apply xreads_at; [exact Y|lia]|exact (proj1 Y)].
Qed.
Lemma tsays_in : forall lc e neg lss es, xreads lc e -> Forall2 xreads lss es -> lss <> [] ->
  tsays (lc ++ in_lexemes neg ++ bracketed (joinx [XSym 44] lss)) (TIn e neg es).
Proof.
  intros lc e neg lss es X F NE. pose proof (proj1 X) as H. split; [destruct lc; [contradiction|discriminate]|].
  split; [intros u; now apply okhead_not_select|]. intros n m L1 L2. rewrite !app_length, bracketed_length in *.
  apply t_one, in_parses; [apply xreads_at; [exact X|lia]|exact H| |exact NE|exact (xreads_heads _ _ F)].
  apply xreads_all; [exact F|]. apply (joinx_parts [XSym 44]). lia.
Qed.
Lemma tsays_in_sub : forall lc e neg ls q, xreads lc e -> qreads ls q ->
  tsays (lc ++ in_lexemes neg ++ bracketed ls) (TInSub e neg q).
Proof.
  intros lc e neg ls q X Q. pose proof (proj1 X) as H. split; [destruct lc; [contradiction|discriminate]|].
  split; [intros u; now apply okhead_not_select|]. intros n m L1 L2. rewrite !app_length in *.
  apply t_one, in_sub_parses; [apply xreads_at; [exact X|lia]|exact H|]. apply sub_reads; [exact Q|]. lia.
Qed.
Lemma tsays_exists : forall ls q, qreads ls q -> tsays (XWord (lit "EXISTS") :: bracketed ls) (TExists q).
Proof.
  intros ls q Q. split; [discriminate|]. split; [intros u X; discriminate|]. intros n m L1 L2. cbn [List.length] in *.
  apply t_one, exists_parses, sub_reads; [exact Q|]. lia.
Qed.

(** ** Expressions *)
Lemma xreads_column : forall p, p <> [] -> xreads (path_lexemes p) (NColumn p).
Proof.
  intros p NE. apply (xreads_intro _ dot).
  - destruct (path_first p [] NE) as [x [u [X K]]]. rewrite app_nil_r in X. rewrite X. destruct K as [[s ->]| ->]; [exact Logic.I|now left].
  - apply incl_refl.
  - intros n _. now apply column_nexpr.
Qed.
Lemma digits_reserved : forall a, a <> [] -> all_digits a = true -> existsb (seqb a) reserved = false.
Proof.
  intros a NE A. destruct (existsb (seqb a) reserved) eqn:X; [|reflexivity]. apply existsb_exists in X. destruct X as [w [I S]].
  apply seqb_eq in S. subst w. unfold reserved, select_options in I. cbn [In] in I.
  repeat (destruct I as [<-|I]; [vm_compute in A; discriminate A|]). destruct I.
Qed.
Lemma literal_head : forall b l, literal_good l -> okhead (literal_lexemes b l).
Proof.
  intros b [|[]|z|s|x|neg a f] G; try reflexivity; try exact Logic.I.
  - cbn [literal_lexemes]. destruct (z <? 0)%Z; cbn [okhead]; auto. apply digits_reserved; [apply n_dec_nonnil|].
    exact (digits_all _ (n_dec_digits _)).
  - destruct b; reflexivity.
  - destruct G as [NE [A _]]. destruct neg; cbn [literal_lexemes app okhead]; auto using digits_reserved.
Qed.
Lemma xreads_literal : forall b l, literal_good l -> xreads (literal_lexemes b l) (NLiteral l).
Proof.
  intros b l G. apply (xreads_intro _ dot); [now apply literal_head|apply incl_refl|]. intros n _. now apply literal_nexpr.
Qed.
Definition good_function (f : str) : Prop :=
  known f /\ existsb (seqb f) reserved = false /\ f <> lit "GROUP_CONCAT" /\ f <> lit "CONVERT".
Lemma xreads_call : forall f d lss es, good_function f -> Forall2 xreads lss es -> lss <> [] ->
  xreads (XWord f :: bracketed ((if d : bool then [XWord (lit "DISTINCT")] else []) ++ joinx [XSym 44] lss)) (NCall f d es).
Proof.
  intros f d lss es [K [H [N1 N2]]] F NE. apply (xreads_intro _ []); [exact H|intros x []|].
  intros n L. cbn [List.length] in L. rewrite bracketed_length, app_length in L.
  apply call_nexpr; auto; [|exact (xreads_heads _ _ F)]. apply xreads_all; [exact F|]. apply (joinx_parts [XSym 44]). lia.
Qed.
Lemma xreads_convert : forall ls e ty, xreads ls e -> xreads (XWord (lit "CONVERT") :: bracketed (ls ++ [XSym 44; XWord ty])) (NConvert e ty).
Proof.
  intros ls e ty X. apply (xreads_intro _ []); [reflexivity|intros x []|].
  intros n L. cbn [List.length] in L. rewrite bracketed_length, app_length in L. apply convert_nexpr, xreads_at; [exact X|lia].
Qed.
Definition an_ordered : NP (nexpr * bool) := fun px _ => p_ordered px.
Lemma readable_ordered : forall ls e desc, xreads ls e -> readable an_ordered end_ordered (order_lexemes ls desc) (e, desc).
Proof.
  intros ls e desc X n m L _. apply ordered_reads, xreads_at; [exact X|]. unfold order_lexemes in L. rewrite app_length in L. lia.
Qed.
Lemma xreads_group_concat : forall lss es lo os ls s, Forall2 xreads lss es -> lss <> [] ->
  clause_in [lit "ORDER"; lit "BY"] (fun px pq => p_list (an_ordered px pq)) (XSym 44 :: end_ordered) lo os ->
  clause_in [lit "SEPARATOR"] an_expr dot ls s ->
  xreads (XWord (lit "GROUP_CONCAT") :: bracketed (joinx [XSym 44] lss ++ lo ++ ls)) (NGroupConcat es (or_nil os) s).
Proof.
  intros lss es lo os ls s F NE Co Cs. apply (xreads_intro _ []); [reflexivity|intros x []|].
  intros n L. cbn [List.length] in L. rewrite bracketed_length, !app_length in L. apply group_concat_nexpr.
  - apply xreads_all; [exact F|]. apply (joinx_parts [XSym 44]). lia.
  - exact NE.
  - apply (clause_at _ _ _ _ _ _ n n Co); lia.
  - apply (clause_at _ _ _ _ _ _ n n Cs); lia.
Qed.
Lemma xreads_sub : forall ls q, qreads ls q -> xreads (bracketed ls) (NSub q).
Proof.
  intros ls q Q. apply (xreads_intro _ []); [|intros x []|].
  - destruct Q as [[u ->] _]. cbn [bracketed okhead app]. right. right. eauto.
  - intros n L. apply sub_nexpr; [exact (proj1 Q)|]. now apply sub_reads.
Qed.
