(** Proofs for C55-C59: the parser of SpecSql.v on the words and symbols of rendered queries. *)
From Coq Require Import Lia.
From Verif Require Import Base BaseFacts NumFmt Value SpecLex SpecRef SpecRead SpecLogic BoolFacts LiteralFacts SpecWhole
  SpecSql SpecServer PfSql.
Open Scope N_scope.

(** The rest does not begin with one of these. *)
Definition stops (bad : list lexeme) (rest : list lexeme) : Prop :=
  match rest with [] => True | x :: _ => ~ In x bad end.
Lemma stops_incl : forall l m rest, incl l m -> stops m rest -> stops l rest.
Proof. intros l m [|x r] H S; [exact Logic.I|]. intros I. apply S, H, I. Qed.
Lemma stops_nil : forall rest, stops [] rest.
Proof. intros [|x r]; [exact Logic.I|]. intros []. Qed.
Lemma sym_stop : forall c bad rest, In (XSym c) bad -> stops bad rest -> sym c rest = None.
Proof.
  intros c bad [|[] r] I S; try reflexivity. cbn. destruct (N.eqb_spec c0 c) as [->|]; [contradiction|reflexivity].
Qed.
Lemma keyword_stop : forall w bad rest, In (XWord w) bad -> stops bad rest -> keyword w rest = None.
Proof.
  intros w bad [|[] r] I S; try reflexivity. cbn. destruct (seqb w0 w) eqn:X; [apply seqb_eq in X; subst; contradiction|reflexivity].
Qed.

(** [p] reads [ls] as [x], before anything that stops it. *)
Definition reads {A} (p : parser A) (bad ls : list lexeme) (x : A) : Prop :=
  ls <> [] /\ forall rest, stops bad rest -> p (ls ++ rest) = Some (x, rest).

Definition dot := [XSym 46].
Lemma path_nonempty : forall p, p <> [] -> path_lexemes p <> [].
Proof. intros [|s [|s' p]] H; [contradiction| |]; cbn; destruct (seqb s [42]); discriminate. Qed.
Lemma p_segment_lexeme : forall s r, p_segment ((if seqb s [42] then XSym 42 else XId s) :: r) = Some (s, r).
Proof. intros s r. destruct (seqb s [42]) eqn:X; [apply seqb_eq in X; subst|]; reflexivity. Qed.
Lemma p_path_reads : forall p n rest, p <> [] -> (List.length p <= n)%nat -> stops dot rest ->
  p_path n (path_lexemes p ++ rest) = Some (p, rest).
Proof.
  induction p as [|s [|s' p] IH]; intros n rest NE L S; [contradiction| |].
  - destruct n as [|n]; [cbn in L; lia|]. cbn [path_lexemes app p_path]. rewrite p_segment_lexeme.
    now rewrite (sym_stop 46 dot) by (simpl; auto).
  - destruct n as [|n]; [cbn in L; lia|].
    change (path_lexemes (s :: s' :: p)) with ((if seqb s [42] then XSym 42 else XId s) :: XSym 46 :: path_lexemes (s' :: p)).
    cbn [app p_path]. rewrite p_segment_lexeme. cbn [sym]. rewrite N.eqb_refl.
    rewrite IH; [reflexivity|discriminate|cbn in *; lia|exact S].
Qed.
Lemma path_length : forall p, (List.length p <= List.length (path_lexemes p))%nat.
Proof. induction p as [|s [|s' p] IH]; [auto|auto|]. cbn in *. lia. Qed.
Lemma column_reads : forall p, p <> [] -> reads p_column dot (path_lexemes p) p.
Proof.
  intros p NE. split; [now apply path_nonempty|]. intros rest S. unfold p_column. apply p_path_reads; auto.
  rewrite app_length. pose proof (path_length p). lia.
Qed.

(** Lists. *)
Lemma p_list_n_reads : forall A (p : parser A) bad lss xs, Forall2 (reads p bad) lss xs -> lss <> [] ->
  ~ In (XSym 44) bad ->
  forall n rest, (List.length lss <= n)%nat -> stops (XSym 44 :: bad) rest ->
  p_list_n p n (joinx [XSym 44] lss ++ rest) = Some (xs, rest).
Proof.
  intros A p bad lss xs F. induction F as [|ls x lss xs [NE R] F IH]; intros NN B n rest L S; [contradiction|].
  destruct n as [|n]; [cbn in L; lia|].
  destruct F as [|ls' x' lss xs H' F].
  - cbn [joinx p_list_n]. rewrite R by (eapply stops_incl; [|exact S]; intros y; simpl; auto).
    now rewrite (sym_stop 44 (XSym 44 :: bad)) by (simpl; auto).
  - change (joinx [XSym 44] (ls :: ls' :: lss)) with (ls ++ [XSym 44] ++ joinx [XSym 44] (ls' :: lss)).
    rewrite <- !app_assoc. cbn [p_list_n]. rewrite R by exact B. cbn [app sym]. rewrite N.eqb_refl.
    rewrite IH; [reflexivity|discriminate|exact B|cbn in *; lia|exact S].
Qed.
Lemma joinx_length : forall sep lss, Forall (fun l => l <> []) lss -> (List.length lss <= List.length (joinx sep lss))%nat.
Proof.
  intros sep lss F. induction F as [|l lss NE F IH]; [auto|]. destruct lss as [|m lss].
  - destruct l; [contradiction|]. cbn. lia.
  - change (joinx sep (l :: m :: lss)) with (l ++ sep ++ joinx sep (m :: lss)). rewrite !app_length.
    destruct l; [contradiction|]. cbn [List.length] in *. lia.
Qed.
Lemma joinx_nonempty : forall sep lss, Forall (fun l => l <> []) lss -> lss <> [] -> joinx sep lss <> [].
Proof.
  intros sep lss F NE X. pose proof (joinx_length sep lss F) as L. rewrite X in L. destruct lss; [contradiction|]. cbn in L. lia.
Qed.
Lemma reads_nonempty : forall A (p : parser A) bad lss xs, Forall2 (reads p bad) lss xs -> Forall (fun l => l <> []) lss.
Proof. intros A p bad lss xs F. induction F as [|l x lss xs [NE _] F IH]; constructor; auto. Qed.
Lemma list_reads : forall A (p : parser A) bad lss xs, Forall2 (reads p bad) lss xs -> lss <> [] -> ~ In (XSym 44) bad ->
  reads (p_list p) (XSym 44 :: bad) (joinx [XSym 44] lss) xs.
Proof.
  intros A p bad lss xs F NE B. pose proof (reads_nonempty _ _ _ _ _ F) as N. split; [now apply joinx_nonempty|].
  intros rest S. unfold p_list. apply (p_list_n_reads A p bad); auto. rewrite app_length.
  pose proof (joinx_length [XSym 44] lss N). lia.
Qed.
Lemma bracketed_reads : forall A (p : parser A) bad lss xs, Forall2 (reads p bad) lss xs -> lss <> [] ->
  ~ In (XSym 44) bad -> ~ In (XSym 41) bad ->
  reads (p_bracketed p) [] (XSym 40 :: joinx [XSym 44] lss ++ [XSym 41]) xs.
Proof.
  intros A p bad lss xs F NE B B'. split; [discriminate|]. intros rest _. unfold p_bracketed. cbn [app sym].
  change (40 =? 40) with true. cbn match. rewrite <- app_assoc.
  destruct (list_reads A p bad lss xs F NE B) as [_ R]. rewrite R; [reflexivity|].
  cbn. intros [X|X]; [discriminate|contradiction].
Qed.

(** Literals. *)
Definition literal_lexemes (b : backend) (l : literal) : list lexeme :=
  match l with
  | LNull => [XWord (lit "NULL")]
  | LBool true => [XWord (lit "true")] | LBool false => [XWord (lit "false")]
  | LInt z => if (z <? 0)%Z then [XSym 45; XWord (n_dec (Z.abs_N z))] else [XWord (n_dec (Z.abs_N z))]
  | LText s => [XStr s]
  | LBytes x => match b with BPostgres => [XWord [69]; XStr (lit "\x" ++ hexlify x)] | _ => [XWord [120]; XStr (hexlify x)] end
  | LNumber neg a f => (if neg then [XSym 45] else []) ++ [XWord a; XSym 46; XWord f]
  end.
Definition literal_good (l : literal) : Prop :=
  match l with
  | LBytes x => Forall (fun c => c < 256) x
  | LNumber _ a f => a <> [] /\ all_digits a = true /\ all_digits f = true
  | _ => True
  end.
Lemma n_dec_word : forall n c w, In c w -> ~ (48 <= c <= 57) -> seqb (n_dec n) w = false.
Proof.
  intros n c w I H. apply seqb_neq. intros X. apply H. apply (n_dec_digits n). now rewrite X.
Qed.
Lemma literal_nonempty : forall b l, literal_lexemes b l <> [].
Proof.
  intros b l. destruct l as [|[]|z| | |neg a f]; cbn; try discriminate; [destruct (z <? 0)%Z; discriminate|destruct b; discriminate|destruct neg; discriminate].
Qed.
Definition is_number (l : literal) : bool := match l with LNumber _ _ _ => true | _ => false end.
Lemma atom_reads : forall b l, literal_good l -> is_number l = false -> reads p_atom [] (literal_lexemes b l) l.
Proof.
  intros b l G A. split; [apply literal_nonempty|].
  - intros rest _. destruct l as [|[]|z|s|x|]; try reflexivity; try discriminate A.
    + cbn [literal_lexemes]. destruct (z <? 0)%Z eqn:Z.
      * cbn [app p_atom]. change (45 =? 45) with true. cbn match. rewrite read_nat_dec. do 3 f_equal. lia.
      * cbn [app p_atom].
        rewrite (n_dec_word _ 78 (lit "NULL")) by (simpl; auto || lia).
        rewrite (n_dec_word _ 116 (lit "true")) by (simpl; auto || lia).
        rewrite (n_dec_word _ 102 (lit "false")) by (simpl; auto || lia).
        rewrite (n_dec_word _ 120 (lit "x")) by (simpl; auto || lia).
        rewrite (n_dec_word _ 69 (lit "E")) by (simpl; auto || lia).
        rewrite read_nat_dec. do 3 f_equal. lia.
    + pose proof (hexlify_unhex x G) as U. destruct b; cbn -[unhex hexlify]; rewrite U; reflexivity.
Qed.
Lemma decimal_none : forall neg w rest, stops dot rest -> p_decimal neg (XWord w :: rest) = None.
Proof.
  intros neg w [|[s|s|v|c|] rest] S; try reflexivity. cbn [p_decimal]. destruct rest as [|[s|s|v|c'|] rest]; try reflexivity.
  destruct (N.eqb_spec c 46) as [->|]; [|reflexivity]. exfalso. apply S. now left.
Qed.
Lemma number_word : forall w rest, stops dot rest -> p_number (XWord w :: rest) = None.
Proof. intros w rest S. unfold p_number. cbn [sym]. now apply decimal_none. Qed.
Lemma number_reads : forall (neg : bool) a f rest, all_digits a = true -> all_digits f = true ->
  p_number (((if neg then [XSym 45] else []) ++ [XWord a; XSym 46; XWord f]) ++ rest) = Some (LNumber neg a f, rest).
Proof.
  intros neg a f rest A F. unfold p_number.
  assert (D : forall u, p_decimal neg (XWord a :: XSym 46 :: XWord f :: u) = Some (LNumber neg a f, u)).
  { intros u. unfold p_decimal. rewrite A, F. reflexivity. }
  destruct neg; cbn [app sym]; [change (45 =? 45) with true; cbv iota|]; apply D.
Qed.
Lemma literal_reads : forall b l, literal_good l -> reads p_literal dot (literal_lexemes b l) l.
Proof.
  intros b l G. split; [apply literal_nonempty|]. intros rest S. unfold p_literal. destruct (is_number l) eqn:A.
  - destruct l as [| | | | |neg a f]; try discriminate A. destruct G as [_ [G1 G2]]. cbn [literal_lexemes]. now rewrite number_reads.
  - destruct (atom_reads b l G A) as [_ R]. rewrite R by apply stops_nil.
    assert (X : p_number (literal_lexemes b l ++ rest) = None); [|now rewrite X].
    destruct l as [|[]|z|s|x|]; try discriminate A; cbn [literal_lexemes]; try (cbn [app]; now apply number_word); try reflexivity.
    + destruct (z <? 0)%Z; cbn [app]; [|now apply number_word]. unfold p_number. cbn [sym]. change (45 =? 45) with true. cbv iota.
      now rewrite decimal_none.
    + destruct b; reflexivity.
Qed.
Lemma call_literal : forall f u, p_literal [XWord f; XSym 40] = None -> p_literal (XWord f :: XSym 40 :: u) = None.
Proof.
  intros f u H. unfold p_literal in *. rewrite number_word in * by (cbn; intuition discriminate). cbn [p_atom] in *.
  destruct (seqb f (lit "NULL")); [discriminate|]. destruct (seqb f (lit "true")); [discriminate|].
  destruct (seqb f (lit "false")); [discriminate|]. destruct (seqb f (lit "x")); [reflexivity|].
  destruct (seqb f (lit "E")); [reflexivity|]. now destruct (read_nat f).
Qed.
Lemma path_literal : forall x u, (exists s, x = XId s) \/ x = XSym 42 -> p_literal (x :: u) = None.
Proof. intros x u [[s ->]| ->]; [reflexivity|]. cbn. now destruct u as [|[] u]. Qed.

(** Columns and functions. *)
Definition expr_lexemes (e : expr) : list lexeme :=
  match e with
  | EColumn p => path_lexemes p
  | ECall f d ps => XWord f :: XSym 40 :: (if d then [XWord (lit "DISTINCT")] else []) ++ joinx [XSym 44] (map path_lexemes ps) ++ [XSym 41]
  end.
Definition expr_good (e : expr) : Prop :=
  match e with EColumn p => p <> [] | ECall _ _ ps => ps <> [] /\ Forall (fun p => p <> []) ps end.
Lemma path_first : forall p rest, p <> [] -> exists x r, path_lexemes p ++ rest = x :: r /\ ((exists s, x = XId s) \/ x = XSym 42).
Proof.
  intros [|s [|s' p]] rest NE; [contradiction| |]; cbn; destruct (seqb s [42]); eauto 6.
Qed.
Lemma paths_read : forall ps, Forall (fun p => p <> []) ps -> Forall2 (reads p_column dot) (map path_lexemes ps) ps.
Proof. intros ps F. induction F; constructor; auto using column_reads. Qed.
Lemma joinx_first : forall sep l r lss, exists u, joinx sep ((l :: r) :: lss) = l :: u.
Proof. intros sep l r [|m lss]; cbn; eauto. Qed.
Lemma expr_reads : forall e, expr_good e -> reads p_expr dot (expr_lexemes e) e.
Proof.
  intros [p|f d ps] G; cbn [expr_good expr_lexemes] in *.
  - destruct (column_reads p G) as [NE R]. split; [exact NE|]. intros rest S.
    destruct (path_first p rest G) as [x [r [X K]]]. unfold p_expr. specialize (R rest S). rewrite X in *. destruct K as [[s ->]| ->]; rewrite R; reflexivity.
  - destruct G as [NE F]. split; [discriminate|]. intros rest S. cbn [app p_expr sym]. change (40 =? 40) with true. cbn match.
    rewrite <- !app_assoc.
    assert (N : map path_lexemes ps <> []) by (destruct ps; [contradiction|discriminate]).
    destruct (list_reads _ p_column dot _ _ (paths_read ps F) N (ltac:(cbn; intuition discriminate))) as [_ R].
    specialize (R ([XSym 41] ++ rest) (ltac:(cbn; intuition discriminate))).
    destruct d.
    + cbn [app keyword]. rewrite seqb_refl. cbn [app] in R. now rewrite R.
    + cbn [app]. replace (keyword (lit "DISTINCT") (joinx [XSym 44] (map path_lexemes ps) ++ XSym 41 :: rest)) with (@None (list lexeme)).
      * cbn [app] in R. now rewrite R.
      * destruct ps as [|p ps]; [contradiction|]. inversion F as [|? ? Np _]; subst.
        destruct p as [|s p]; [contradiction|]. cbn [map].
        assert (K : exists k u, path_lexemes (s :: p) = k :: u /\ forall w, k <> XWord w).
        { destruct p; cbn; destruct (seqb s [42]); eexists; eexists; (split; [reflexivity|discriminate]). }
        destruct K as [k [u [-> Hk]]]. destruct (joinx_first [XSym 44] k u (map path_lexemes ps)) as [v ->].
        cbn. destruct k; try reflexivity. now destruct (Hk w).
Qed.
Lemma expr_not_literal : forall e rest, expr_good e -> (forall f d ps, e = ECall f d ps -> p_literal [XWord f; XSym 40] = None) ->
  p_literal (expr_lexemes e ++ rest) = None.
Proof.
  intros [p|f d ps] rest G H; cbn [expr_good expr_lexemes] in *.
  - destruct (path_first p rest G) as [x [r [-> K]]]. now apply path_literal.
  - specialize (H f d ps eq_refl). cbn [app]. now apply call_literal.
Qed.

(** ** Conditions *)
Definition sem := (compop -> literal -> literal -> bool) -> (expr -> literal) -> t3.
Definition means (e : sexp) (f : sem) : Prop := forall c v, truth c v e = f c v.

Definition stop_at (l : level) : list lexeme :=
  match l with
  | Factor => dot
  | Term => XWord (lit "AND") :: dot
  | Search => XWord (lit "OR") :: XWord (lit "AND") :: dot
  end.
Definition rank (l : level) : nat := match l with Factor => 1 | Term => 2 | Search => 3 end.
Definition parses (l : level) (ls : list lexeme) (e : sexp) : Prop :=
  ls <> [] /\ forall n rest, (3 * List.length ls + rank l <= n)%nat -> stops (stop_at l) rest ->
  p_exp n l (ls ++ rest) = Some (e, rest).

Lemma predicate_parses : forall ls e, reads p_predicate dot ls e ->
  (forall rest, keyword (lit "NOT") (ls ++ rest) = None /\ sym 40 (ls ++ rest) = None) -> parses Factor ls e.
Proof.
  intros ls e [NE R] H. split; [exact NE|]. intros n rest L S. destruct n as [|n]; [cbn in L; lia|].
  cbn [p_exp]. destruct (H rest) as [-> ->]. now apply R.
Qed.
Lemma paren_parses : forall ls e, parses Search ls e -> parses Factor (XSym 40 :: ls ++ [XSym 41]) e.
Proof.
  intros ls e [NE P]. split; [discriminate|]. intros n rest L S. cbn [List.length] in L. rewrite app_length in L. cbn in L.
  destruct n as [|n]; [lia|]. cbn [p_exp app keyword sym]. change (40 =? 40) with true. cbn match.
  rewrite <- app_assoc. rewrite P; [reflexivity|cbn; lia|]. cbn. intuition discriminate.
Qed.
Lemma not_parses : forall ls e, parses Factor ls e -> parses Factor (XWord (lit "NOT") :: ls) (SNot e).
Proof.
  intros ls e [NE P]. split; [discriminate|]. intros n rest L S. cbn [List.length rank] in L.
  destruct n as [|n]; [lia|]. cbn [p_exp app keyword]. rewrite seqb_refl. rewrite P; [reflexivity|cbn; lia|exact S].
Qed.

(** Sequences of factors joined by AND. *)
Inductive term : list lexeme -> sexp -> Prop :=
| t_one : forall ls e, parses Factor ls e -> term ls e
| t_and : forall ls e ms f, parses Factor ls e -> term ms f -> term (ls ++ XWord (lit "AND") :: ms) (SAnd e f).
Lemma term_parses : forall ls e, term ls e -> parses Term ls e.
Proof.
  intros ls e T. induction T as [ls e [NE P]|ls e ms f [NE P] T [NE' IH]].
  - split; [exact NE|]. intros n rest L S. cbn [rank] in L. destruct n as [|n]; [lia|]. cbn [p_exp].
    rewrite P; [|cbn; lia|eapply stops_incl; [|exact S]; intros y; simpl; auto].
    now rewrite (keyword_stop (lit "AND") (stop_at Term)) by (simpl; auto).
  - split; [now destruct ls|]. intros n rest L S. rewrite app_length in L. cbn [List.length rank] in L.
    destruct n as [|n]; [lia|]. cbn [p_exp]. rewrite <- app_assoc. cbn [app].
    rewrite P; [|cbn; lia|cbn; intuition discriminate]. cbn [keyword]. rewrite seqb_refl.
    rewrite IH; [reflexivity|cbn; lia|exact S].
Qed.
Lemma term_app : forall ls e, term ls e -> forall ms f, term ms f ->
  exists g, term (ls ++ XWord (lit "AND") :: ms) g /\ forall c v, truth c v g = and3 (truth c v e) (truth c v f).
Proof.
  intros ls e T. induction T as [ls e P|ls e ms f P T IH]; intros ns g Tn.
  - exists (SAnd e g). split; [now constructor|reflexivity].
  - destruct (IH ns g Tn) as [h [Th H]]. exists (SAnd e h). rewrite <- app_assoc. cbn [app]. split; [now constructor|].
    intros c v. cbn [truth]. now rewrite H, and3_assoc.
Qed.
Lemma term_search : forall ls e, term ls e -> parses Search ls e.
Proof.
  intros ls e T. destruct (term_parses ls e T) as [NE P]. split; [exact NE|]. intros n rest L S. cbn [rank] in L.
  destruct n as [|n]; [lia|]. cbn [p_exp]. rewrite P; [|cbn; lia|eapply stops_incl; [|exact S]; intros y; simpl; auto].
  now rewrite (keyword_stop (lit "OR") (stop_at Search)) by (simpl; auto).
Qed.
Lemma or_search : forall ls e ms f, term ls e -> term ms f -> parses Search (ls ++ XWord (lit "OR") :: ms) (SOr e f).
Proof.
  intros ls e ms f T T'. destruct (term_parses ls e T) as [NE P]. destruct (term_search ms f T') as [NE' P'].
  split; [now destruct ls|]. intros n rest L S. rewrite app_length in L. cbn [List.length rank] in L.
  destruct n as [|n]; [lia|]. cbn [p_exp]. rewrite <- app_assoc. cbn [app].
  rewrite P; [|cbn; lia|cbn; intuition discriminate]. cbn [keyword]. rewrite seqb_refl.
  rewrite P'; [reflexivity|cbn; lia|exact S].
Qed.
Lemma search_reads : forall ls e, parses Search ls e -> reads p_search (stop_at Search) ls e.
Proof.
  intros ls e [NE P]. split; [exact NE|]. intros rest S. unfold p_search. apply P; [|exact S].
  rewrite app_length. cbn [rank]. lia.
Qed.
