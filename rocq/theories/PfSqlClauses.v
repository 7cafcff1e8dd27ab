(** Proofs for C56-C59: the clauses of statements. *)
From Coq Require Import Lia Permutation.
From Verif Require Import Base BaseFacts NumFmt Value Regex Backend Eq Render RenderFacts
  SpecLex SpecRef SpecRead SpecLogic SpecConds BoolFacts PfBool RefFacts LiteralFacts PfLiterals PfHistories SpecWhole PfWhole PfWholeText
  PfWholeClauses SpecSql SpecServer PfSql PfSqlParse PfSqlCond PfSqlTree.
Open Scope N_scope.

(** ** The rest begins with one of these words, or is empty *)
Definition starts (K : list str) (l : list lexeme) : Prop := l = [] \/ exists w u, l = XWord w :: u /\ In w K.
Definition is_word (w : str) (x : lexeme) : bool := match x with XWord v => seqb v w | _ => false end.
Definition avoids (K : list str) (bad : list lexeme) : bool := forallb (fun w => negb (existsb (is_word w) bad)) K.
Lemma starts_stops : forall K bad l, starts K l -> avoids K bad = true -> stops bad l.
Proof.
  intros K bad l [->|[w [u [-> I]]]] A; [exact Logic.I|]. intros X. unfold avoids in A. rewrite forallb_forall in A.
  specialize (A w I). apply negb_true_iff in A.
  assert (Y : existsb (is_word w) bad = true) by (apply existsb_exists; exists (XWord w); split; [exact X|apply seqb_refl]).
  congruence.
Qed.
Lemma starts_app : forall K K' l m, starts K l -> starts K' m -> starts (K ++ K') (l ++ m).
Proof.
  intros K K' l m [->|[w [u [-> I]]]] M.
  - destruct M as [->|[w [u [-> I]]]]; [now left|]. right. exists w, u. split; [reflexivity|]. apply in_or_app. now right.
  - right. exists w, (u ++ m). split; [reflexivity|]. apply in_or_app. now left.
Qed.
Lemma starts_nil : starts [] [].
Proof. now left. Qed.
Lemma starts_word : forall w u K, In w K -> starts K (XWord w :: u).
Proof. intros. right. eauto. Qed.

Definition opens (kws : list str) (ls : list lexeme) : option (list lexeme) :=
  fold_left (fun o w => match o with Some r => keyword w r | None => None end) kws (Some ls).
Lemma opens_none : forall kws, fold_left (fun o w => match o with Some r => keyword w r | None => None end) kws None = None.
Proof. induction kws; auto. Qed.
Lemma opens_words : forall kws ls, opens kws (map XWord kws ++ ls) = Some ls.
Proof.
  unfold opens. induction kws as [|w kws IH]; intros ls; [reflexivity|]. cbn [map app fold_left keyword]. rewrite seqb_refl. apply IH.
Qed.
(** A clause: missing, or keywords and a body. *)
Definition clause_of {A} (kws : list str) (p : parser A) (bad ls : list lexeme) (o : option A) : Prop :=
  (ls = [] /\ o = None) \/ exists body y, ls = map XWord kws ++ body /\ o = Some y /\ reads p bad body y.
Lemma clause_reads : forall A w kws (p : parser A) bad ls o rest, clause_of (w :: kws) p bad ls o ->
  stops bad rest -> stops [XWord w] rest -> p_clause (w :: kws) p (ls ++ rest) = Some (o, rest).
Proof.
  intros A w kws p bad ls o rest [[-> ->]|[body [y [-> [-> [_ R]]]]]] S S'; unfold p_clause.
  - cbn [app fold_left]. rewrite (keyword_stop w [XWord w]) by (simpl; auto). now rewrite opens_none.
  - rewrite <- app_assoc. fold (opens (w :: kws) (map XWord (w :: kws) ++ body ++ rest)). rewrite opens_words. now rewrite R.
Qed.
Lemma clause_starts : forall A w kws (p : parser A) bad ls o, clause_of (w :: kws) p bad ls o -> starts [w] ls.
Proof. intros A w kws p bad ls o [[-> _]|[body [y [-> _]]]]; [now left|]. cbn [map app]. apply starts_word. now left. Qed.
Lemma clause_none_of : forall A kws (p : parser A) bad, clause_of kws p bad [] None.
Proof. intros. now left. Qed.
Lemma clause_some_of : forall A kws (p : parser A) bad body y, reads p bad body y -> clause_of kws p bad (map XWord kws ++ body) (Some y).
Proof. intros. right. eauto. Qed.

(** ** Names with aliases *)
Definition end_alias := [XSym 46; XWord (lit "AS")].
Lemma aliased_reads : forall A (p : parser A) ls x la o, reads p dot ls x -> clause_of [lit "AS"] p_column dot la o ->
  reads (p_aliased p) end_alias (ls ++ la) (x, o).
Proof.
  intros A p ls x la o [NE R] C. split; [destruct ls; [contradiction|discriminate]|]. intros rest S. unfold p_aliased.
  rewrite <- app_assoc. rewrite R.
  - rewrite (clause_reads _ _ _ _ _ _ _ rest C); [reflexivity| |].
    + eapply stops_incl; [|exact S]. intros y; cbn; tauto.
    + eapply stops_incl; [|exact S]. intros y; cbn; tauto.
  - destruct C as [[-> _]|[body [y [-> _]]]]; cbn [app].
    + eapply stops_incl; [|exact S]. intros y; cbn; tauto.
    + cbn. intuition discriminate.
Qed.

Section Clauses.
Context (E : env).
Notation b := (e_be E).
Notation d := (dialect_of b).
Notation tells := (tells d).
Notation Hd := (ident_34_96 E).
Notation r := (text E).
Notation Mid := (tells_mid d Hd).
Notation Lead := (tells_lead d Hd).

Lemma name_truthy : forall a, name_ok b a -> truthy a = true.
Proof.
  intros a H. destruct a; try contradiction; [|reflexivity]. destruct s; [|reflexivity]. destruct H as [_ H]. now destruct H.
Qed.
Lemma alias_of : forall a t, name_ok b a -> sqlref E r a = Ok t ->
  exists la p, tells t la /\ path_of a = Some p /\ clause_of [lit "AS"] p_column dot (XWord (lit "AS") :: la) (Some p).
Proof.
  intros a t H T. destruct (name_tells E a t H T) as [p [P [NE Q]]]. exists (path_lexemes p), p. split; [exact Q|]. split; [exact P|].
  apply (clause_some_of _ [lit "AS"]). now apply column_reads.
Qed.
Lemma aliased_tells : forall A (p : parser A) ls n a t (x : A), alias_fine b a -> aliased_str E r (n, a) = Ok t ->
  (forall nt, sqlref E r n = Ok nt -> tells nt ls) -> reads p dot ls x ->
  exists la o, tells t (ls ++ la) /\ says_alias a o /\ reads (p_aliased p) end_alias (ls ++ la) (x, o).
Proof.
  intros A p ls n a t x Ha T Tn R. unfold aliased_str in T. destruct (truthy a) eqn:Tr.
  - assert (Hn : name_ok b a) by (destruct a; try exact Ha; discriminate).
    destruct (sqlref E r n) as [nt|] eqn:En; [|discriminate]. cbn [bind] in T.
    destruct (sqlref E r a) as [at_|] eqn:Ea; [|discriminate]. cbn [bind] in T. injection T as <-.
    destruct (alias_of a at_ Hn Ea) as [la [q [Ta [Pa C]]]]. exists (XWord (lit "AS") :: la), (Some q).
    split; [exact (Mid _ _ c_sp (lit "AS ") [XWord (lit "AS")] _ _ (Tn nt eq_refl) eq_refl (ltac:(split; reflexivity)) Ta)|].
    split; [|now apply aliased_reads].
    unfold says_alias. rewrite Pa. destruct a; try contradiction; split; try reflexivity; discriminate.
  - assert (a = VNone) by (destruct a; try reflexivity; cbn [alias_fine] in Ha; exfalso; apply name_truthy in Ha; congruence). subst a.
    exists [], None. rewrite app_nil_r. split; [exact (Tn t T)|]. split; [reflexivity|].
    pose proof (aliased_reads A p ls x [] None R (or_introl (Logic.conj eq_refl eq_refl))) as Q. now rewrite app_nil_r in Q.
Qed.
Lemma aliased_ok_name : forall n a t, aliased_str E r (n, a) = Ok t -> exists nt, sqlref E r n = Ok nt.
Proof.
  intros n a t T. unfold aliased_str in T. destruct (sqlref E r n) as [nt|]; [eauto|]. destruct (truthy a); discriminate.
Qed.
Lemma table_name_tells : forall n a t, name_ok b n -> alias_fine b a -> aliased_str E r (n, a) = Ok t ->
  exists ls p o, tells t ls /\ path_of n = Some p /\ says_alias a o /\ reads (p_aliased p_column) end_alias ls (p, o) /\
    exists x u, ls = x :: u /\ forall w, x <> XWord w.
Proof.
  intros n a t Hn Ha T. destruct (aliased_ok_name n a t T) as [nt En].
  destruct (name_tells E n nt Hn En) as [p [P [NE Q]]].
  destruct (aliased_tells _ p_column (path_lexemes p) n a t p Ha T) as [la [o [Tl [S R]]]].
  - intros nt' X. rewrite En in X. injection X as <-. exact Q.
  - now apply column_reads.
  - exists (path_lexemes p ++ la), p, o. repeat (split; [assumption|]).
    destruct (path_first p la NE) as [x [u [X K]]]. exists x, u. split; [exact X|]. intros w Y. subst x.
    destruct K as [[s K]|K]; discriminate.
Qed.
Lemma column_tells : forall n a t, expr_ok b n -> alias_fine b a -> aliased_str E r (n, a) = Ok t ->
  exists ls e o, tells t ls /\ says_column (n, a) (e, o) /\ reads (p_aliased p_expr) end_alias ls (e, o) /\
    exists x u, ls = x :: u /\ ((exists s, x = XId s) \/ x = XSym 42 \/ exists f, x = XWord f /\ known f).
Proof.
  intros n a t Hn Ha T. destruct (aliased_ok_name n a t T) as [nt En].
  destruct (expr_tells E n nt Hn En) as [e [Ee [G [Q K]]]].
  destruct (aliased_tells _ p_expr (expr_lexemes e) n a t e Ha T) as [la [o [Tl [S R]]]].
  - intros nt' X. rewrite En in X. injection X as <-. exact Q.
  - now apply expr_reads.
  - exists (expr_lexemes e ++ la), e, o. split; [exact Tl|]. split; [now constructor|]. split; [exact R|].
    destruct e as [p|f dd ps].
    + destruct (path_first p la G) as [x [u [X [Y|Y]]]]; exists x, u; auto.
    + cbn [expr_lexemes app]. do 2 eexists. split; [reflexivity|]. right. right. exists f. split; [reflexivity|]. exact (K f dd ps eq_refl).
Qed.
Lemma order_tells : forall p t, expr_ok b (fst p) -> order_str E r p = Ok t ->
  exists ls o, tells t ls /\ says_order p o /\ reads p_ordering [XSym 46; XWord (lit "DESC")] ls o.
Proof.
  intros [n s] t Hn T. cbn [fst] in Hn.
  assert (En : exists nt, sqlref E r n = Ok nt) by (destruct s; cbn [order_str] in T; destruct (sqlref E r n); eauto; discriminate).
  destruct En as [nt En]. destruct (expr_tells E n nt Hn En) as [e [Ee [G [Q K]]]]. destruct (expr_reads e G) as [NE R].
  destruct s; cbn [order_str] in T; rewrite En in T; cbn [bind] in T; injection T as <-.
  - exists (expr_lexemes e), (e, false). split; [exact Q|]. split; [now constructor|]. split; [exact NE|]. intros rest S.
    unfold p_ordering. rewrite R by (eapply stops_incl; [|exact S]; intros y; cbn; tauto).
    now rewrite (keyword_stop (lit "DESC") [XSym 46; XWord (lit "DESC")]) by (simpl; auto).
  - exists (expr_lexemes e ++ [XWord (lit "DESC")]), (e, true).
    split; [exact (Mid _ _ c_sp [] [] _ _ Q eq_refl (ltac:(split; reflexivity)) (word_tells E (lit "DESC") eq_refl))|].
    split; [now constructor|]. split; [destruct (expr_lexemes e); discriminate|]. intros rest S.
    unfold p_ordering. rewrite <- app_assoc. rewrite R by (cbn; intuition discriminate). cbn [app keyword]. now rewrite seqb_refl.
Qed.

(** ** Lists of parts *)
Lemma parts_tell : forall A (B : Type) (f : A -> res str) (p : parser B) bad (P : A -> B -> Prop) l kw ws def t,
  l <> [] -> ~ In (XSym 44) bad ->
  (forall x u, In x l -> f x = Ok u -> exists ls y, tells u ls /\ P x y /\ reads p bad ls y) ->
  (do ts <- mapM f l; Ok (parts_str kw def (lit ", ") ts)) = Ok t ->
  (kw = [] /\ ws = []) \/ (kw <> [] /\ between (kw ++ [c_sp]) (map XWord ws)) ->
  exists ls ys, tells t (map XWord ws ++ ls) /\ Forall2 P l ys /\ reads (p_list p) (XSym 44 :: bad) ls ys.
Proof.
  intros A B f p bad P l kw ws def t NE NB H T K.
  destruct (mapM f l) as [ts|] eqn:M; [|discriminate]. cbn [bind] in T. injection T as <-.
  assert (X : exists lss ys, Forall2 tells ts lss /\ Forall2 P l ys /\ Forall2 (reads p bad) lss ys).
  { clear NE. revert ts M. induction l as [|x l IH]; intros ts M.
    - injection M as <-. exists [], []. repeat constructor.
    - cbn [mapM] in M. destruct (f x) as [u|] eqn:Fx; [|discriminate]. cbn [bind] in M.
      destruct (mapM f l) as [us|] eqn:Fl; [|discriminate]. cbn [bind] in M. injection M as <-.
      destruct (H x u (or_introl eq_refl) Fx) as [ls [y [T1 [P1 R1]]]].
      destruct (IH (fun x' u' I => H x' u' (or_intror I)) us eq_refl) as [lss [ys [T2 [P2 R2]]]].
      exists (ls :: lss), (y :: ys). repeat split; constructor; assumption. }
  destruct X as [lss [ys [T1 [P1 R1]]]]. exists (joinx [XSym 44] lss), ys.
  assert (NT : ts <> []) by (intros ->; destruct l; [contradiction|]; cbn [mapM] in M; destruct (f a); [|discriminate]; destruct (mapM f l); discriminate).
  assert (J : tells (sjoin (lit ", ") ts) (joinx [XSym 44] lss)).
  { apply (tells_join d Hd 44 [32]); [reflexivity|split; reflexivity|exact NT|exact T1]. }
  split; [|split; [exact P1|]].
  - unfold parts_str. destruct ts as [|t0 ts0]; [contradiction|]. cbn [is_nilb].
    destruct K as [[-> ->]|[NK K]]; [exact J|]. destruct kw as [|c kw]; [contradiction|]. cbn [is_nilb].
    pose proof (Lead _ _ _ _ K J) as Q. rewrite <- app_assoc in Q. exact Q.
  - apply list_reads; [exact R1| |exact NB]. intros ->. inversion T1. subst. contradiction.
Qed.

(** ** Joins and tables *)
Definition end_join := [XSym 46; XWord (lit "AS"); XWord (lit "ON"); XWord (lit "OR"); XWord (lit "AND")].
Definition end_table := [XWord (lit "JOIN"); XWord (lit "LEFT"); XWord (lit "RIGHT"); XWord (lit "FULL")] ++ end_join.
Definition p_join : parser joined := fun ls =>
  match p_joinkind ls with
  | Some (k, r) =>
      match p_aliased p_column r with
      | Some ((t, a), r1) => match p_clause [lit "ON"] p_search r1 with
                             | Some (e, r2) => Some (MkJoined k t a e, r2)
                             | None => None
                             end
      | None => None
      end
  | None => None
  end.
Definition join_words (t : jointy) : list str :=
  match t with
  | JInner => [lit "JOIN"] | JLeft => [lit "LEFT"; lit "JOIN"] | JRight => [lit "RIGHT"; lit "JOIN"] | JFull => [lit "FULL"; lit "JOIN"]
  end.
Lemma joinkind_reads : forall t u, p_joinkind (map XWord (join_words t) ++ u) = Some (kind_of_join t, u).
Proof. intros [] u; reflexivity. Qed.
Definition join_starts (ls : list lexeme) : Prop :=
  exists w u, ls = XWord w :: u /\ In w [lit "JOIN"; lit "LEFT"; lit "RIGHT"; lit "FULL"].
Lemma join_tells : forall j t, join_fine b j -> join_str E r j = Ok t ->
  exists ls y, tells t ls /\ says_join b j y /\ reads p_join end_join ls y /\ join_starts ls.
Proof.
  intros [k n a ons] t [Hn [Ha Ho]] T. cbn [j_name j_alias j_ons] in *. unfold join_str in T. cbn [j_name j_alias j_ons j_type] in T.
  assert (W : between (jointy_str k ++ lit " ") (map XWord (join_words k))) by (destruct k; split; reflexivity).
  assert (St : forall u, join_starts (map XWord (join_words k) ++ u)).
  { intros u. destruct k; cbn [join_words map app]; do 2 eexists; (split; [reflexivity|]); cbn; auto. }
  assert (Rd : forall ls p o lc e, reads (p_aliased p_column) end_alias ls (p, o) -> clause_of [lit "ON"] p_search (stop_at Search) lc e ->
    reads p_join end_join (map XWord (join_words k) ++ ls ++ lc) (MkJoined (kind_of_join k) p o e)).
  { intros ls p o lc e [NE R] C. split; [destruct k; discriminate|]. intros rest S. unfold p_join.
    rewrite <- !app_assoc. rewrite joinkind_reads. rewrite R.
    - rewrite (clause_reads _ _ _ _ _ _ _ rest C); [reflexivity| |]; (eapply stops_incl; [|exact S]); intros y; cbn; tauto.
    - destruct C as [[-> _]|[body [y [-> _]]]]; cbn [app]; [|cbn; intuition discriminate].
      eapply stops_incl; [|exact S]. intros y; cbn; tauto. }
  destruct ons as [|c ons].
  - cbn [is_nilb bind] in T. destruct (aliased_str E r (n, a)) as [nt|] eqn:An; [|discriminate]. cbn [bind] in T. injection T as <-.
    destruct (table_name_tells n a nt Hn Ha An) as [ls [p [o [Tl [P [S [R _]]]]]]].
    exists (map XWord (join_words k) ++ ls), (MkJoined (kind_of_join k) p o None). split; [|split; [|split]].
    + pose proof (Lead _ _ _ _ W Tl) as Q. rewrite <- app_assoc in Q. rewrite app_nil_r. exact Q.
    + now constructor.
    + pose proof (Rd ls p o [] None R (or_introl (Logic.conj eq_refl eq_refl))) as Q. now rewrite app_nil_r in Q.
    + apply St.
  - cbn [is_nilb] in T. destruct (conds_str r [] (c :: ons)) as [ct|] eqn:Co; [|discriminate]. cbn [bind] in T.
    destruct (aliased_str E r (n, a)) as [nt|] eqn:An; [|discriminate]. cbn [bind] in T. injection T as <-.
    destruct (table_name_tells n a nt Hn Ha An) as [ls [p [o [Tl [P [S [R _]]]]]]].
    destruct (conditions_tell E (c :: ons) ct ltac:(discriminate) Ho Co) as [lc [e [Tc [Pc Sc]]]].
    exists (map XWord (join_words k) ++ ls ++ XWord (lit "ON") :: lc), (MkJoined (kind_of_join k) p o (Some e)). split; [|split; [|split]].
    + pose proof (Mid _ _ c_sp (lit "ON ") [XWord (lit "ON")] _ _ Tl eq_refl (ltac:(split; reflexivity)) Tc) as Q1.
      pose proof (Lead _ _ _ _ W Q1) as Q. rewrite <- app_assoc in Q. exact Q.
    + now constructor.
    + apply Rd; [exact R|]. apply (clause_some_of _ [lit "ON"]). now apply search_reads.
    + apply St.
Qed.
Lemma joins_read : forall lss ys, Forall2 (reads p_join end_join) lss ys -> Forall join_starts lss ->
  forall n rest, (List.length lss <= n)%nat -> stops end_table rest -> p_joins n (joinx [] lss ++ rest) = Some (ys, rest).
Proof.
  intros lss ys F. induction F as [|ls y lss ys [NE R] F IH]; intros S n rest L Sr.
  - cbn [joinx app]. destruct n as [|n]; [reflexivity|]. cbn [p_joins].
    assert (X : p_joinkind rest = None).
    { unfold p_joinkind. rewrite !(keyword_stop _ end_table rest) by (try exact Sr; cbn; tauto). reflexivity. }
    now rewrite X.
  - destruct n as [|n]; [cbn in L; lia|].
    assert (X : joinx [] (ls :: lss) = ls ++ joinx [] lss) by (destruct lss; cbn; [now rewrite app_nil_r|reflexivity]).
    rewrite X, <- app_assoc. inversion S as [|? ? S1 S2]; subst.
    assert (Z : stops end_join (joinx [] lss ++ rest)).
    { destruct lss as [|m lss].
      - cbn [joinx app]. eapply stops_incl; [|exact Sr]. intros z; cbn; tauto.
      - inversion S2 as [|? ? [w [u [-> I]]] _]; subst. destruct (joinx_first [] (XWord w) u lss) as [v ->]. cbn [app].
        eapply starts_stops; [apply starts_word; exact I|reflexivity]. }
    specialize (R _ Z). unfold p_join in R. cbn [p_joins].
    destruct (p_joinkind (ls ++ joinx [] lss ++ rest)) as [[k r0]|]; [|discriminate].
    destruct (p_aliased p_column r0) as [[[t a] r1]|]; [|discriminate].
    destruct (p_clause [lit "ON"] p_search r1) as [[e r2]|]; [|discriminate]. injection R as <- ->.
    rewrite IH; [reflexivity|exact S2|cbn in L; lia|exact Sr].
Qed.
Lemma table_tells : forall t u, table_fine b t -> table_str E r t = Ok u ->
  exists ls y, tells u ls /\ says_table b t y /\ reads p_source end_table ls y /\ exists x v, ls = x :: v /\ forall w, x <> XWord w.
Proof.
  intros [n a js] u [Hn [Ha [Hj K]]] T. cbn [tb_name tb_alias tb_joins] in *. unfold table_str in T. cbn [tb_name tb_alias tb_joins] in T.
  destruct (aliased_str E r (n, a)) as [nt|] eqn:An; [|discriminate]. cbn [bind] in T.
  destruct (table_name_tells n a nt Hn Ha An) as [ls [p [o [Tl [P [S [[NE R] [x [v [X W]]]]]]]]]].
  destruct js as [|j js].
  - cbn [is_nilb] in T. injection T as <-. exists ls, (MkSource p o []). split; [exact Tl|]. split; [now constructor|].
    split; [|eauto]. split; [exact NE|]. intros rest Sr. unfold p_source.
    rewrite R by (eapply stops_incl; [|exact Sr]; intros z; cbn; tauto).
    rewrite (joins_read [] [] (Forall2_nil _) (Forall_nil _) _ rest) by (auto; cbn; lia). reflexivity.
  - cbn [is_nilb] in T.
    assert (Mi : minimize r (j :: js) = Ok (j :: js)).
    { apply minimize_apart. destruct K as [K|K]; [|exact K]. destruct js; [|cbn in K; lia]. repeat constructor. }
    rewrite Mi in T. cbn [bind] in T. destruct (mapM (join_str E r) (j :: js)) as [ts|] eqn:M; [|discriminate]. cbn [bind] in T. injection T as <-.
    assert (Y : exists lss ys, Forall2 tells ts lss /\ Forall2 (says_join b) (j :: js) ys /\ Forall2 (reads p_join end_join) lss ys /\ Forall join_starts lss).
    { revert ts M Hj. clear. intros ts M. revert ts M. induction (j :: js) as [|i l IH]; intros ts M H.
      - injection M as <-. exists [], []. repeat constructor.
      - cbn [mapM] in M. destruct (join_str E r i) as [u|] eqn:Fx; [|discriminate]. cbn [bind] in M.
        destruct (mapM (join_str E r) l) as [us|] eqn:Fl; [|discriminate]. cbn [bind] in M. injection M as <-.
        inversion H as [|? ? H1 H2]; subst. destruct (join_tells i u H1 Fx) as [ls [y [T1 [P1 [R1 S1]]]]].
        destruct (IH us eq_refl H2) as [lss [ys [T2 [P2 [R2 S2]]]]].
        exists (ls :: lss), (y :: ys). repeat split; constructor; assumption. }
    destruct Y as [lss [ys [T1 [P1 [R1 S1]]]]].
    exists (ls ++ joinx [] lss), (MkSource p o ys). split; [|split; [|split]].
    + assert (J : tells (sjoin (lit " ") ts) (joinx [] lss)).
      { apply (tells_join d Hd 32 []); [reflexivity|split; reflexivity| |exact T1]. intros ->. inversion T1; subst. now inversion R1; subst; inversion P1. }
      exact (Mid _ _ c_sp [] [] _ _ Tl eq_refl (ltac:(split; reflexivity)) J).
    + now constructor.
    + split; [destruct ls; [contradiction|discriminate]|]. intros rest Sr. unfold p_source. rewrite <- app_assoc. rewrite R.
      * rewrite (joins_read lss ys R1 S1); [reflexivity| |exact Sr]. rewrite app_length.
        pose proof (joinx_length [] lss (reads_nonempty _ _ _ _ _ R1)). lia.
      * destruct lss as [|m lss].
        -- cbn [joinx app]. eapply stops_incl; [|exact Sr]. intros z; cbn; tauto.
        -- inversion S1 as [|? ? [w [v' [-> I]]] _]; subst. destruct (joinx_first [] (XWord w) v' lss) as [v'' ->]. cbn [app].
           eapply starts_stops; [apply starts_word; exact I|reflexivity].
    + exists x, (v ++ joinx [] lss). split; [now rewrite X|exact W].
Qed.
End Clauses.
