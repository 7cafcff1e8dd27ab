(** Proofs for C55: trees of conditions. *)
From Coq Require Import Lia.
From Verif Require Import Base BaseFacts NumFmt Value Regex Backend Eq Render RenderFacts
  SpecLex SpecRef SpecRead SpecLogic SpecConds BoolFacts PfBool RefFacts LiteralFacts PfLiterals PfHistories SpecWhole PfWhole PfWholeText
  PfWholeClauses SpecSql SpecServer PfSql PfSqlParse PfSqlCond.
Open Scope N_scope.

Fixpoint cond_ok_ind' (b : backend) (P : val -> Prop)
  (H1 : forall k c rk v, one_ok b k c rk v -> P (VCond k c rk v))
  (Hq : forall ps, ps <> [] -> Forall P ps -> P (VConds ps))
  (Hb : forall o x y, P x -> P y -> P (VCoC o x y))
  (Hn : forall ps, ps <> [] -> Forall P ps -> P (VNot ps)) x (H : cond_ok b x) {struct H} : P x :=
  let go := fix go ps (F : Forall (cond_ok b) ps) {struct F} : Forall P ps :=
    match F with
    | Forall_nil _ => Forall_nil _
    | Forall_cons y Hy F' => Forall_cons y (cond_ok_ind' b P H1 Hq Hb Hn y Hy) (go _ F')
    end in
  match H with
  | co_one _ k c rk v Ho => H1 k c rk v Ho
  | co_q _ ps N F => Hq ps N (go ps F)
  | co_bin _ o x y Hx Hy => Hb o x y (cond_ok_ind' b P H1 Hq Hb Hn x Hx) (cond_ok_ind' b P H1 Hq Hb Hn y Hy)
  | co_not _ ps N F => Hn ps N (go ps F)
  end.

Section Tree.
Context (E : env).
Notation b := (e_be E).
Notation d := (dialect_of b).
Notation tells := (tells d).
Notation Hd := (ident_34_96 E).
Notation r := (text E).

Definition term_of (t : str) (f : sem) : Prop := exists ls e, tells t ls /\ term ls e /\ means e f.
Definition conj (l : list val) : sem := fun c v => asked_all b c v l.

Lemma and_between : between (lit " AND ") [XWord (lit "AND")].
Proof. split; reflexivity. Qed.
Lemma conj_term : forall ps ts, ps <> [] -> Forall (fun x => forall t, r x = Ok t -> term_of t (asks E x)) ps ->
  mapM r ps = Ok ts -> term_of (sjoin (lit " AND ") ts) (conj ps).
Proof.
  induction ps as [|p ps IH]; intros ts NE F M; [contradiction|]. cbn [mapM] in M.
  destruct (r p) as [t|] eqn:Ht; [|discriminate]. cbn [bind] in M.
  destruct (mapM r ps) as [us|] eqn:Hm; [|discriminate]. cbn [bind] in M. injection M as <-.
  inversion F as [|? ? Fp Fps]; subst. destruct (Fp t Ht) as [ls [e [T [P X]]]].
  destruct ps as [|p' ps'].
  - injection Hm as <-. exists ls, e. split; [exact T|]. split; [exact P|]. intros c v. rewrite X. unfold conj, asked_all.
    cbn [fold_right]. now rewrite and3_true_r.
  - destruct (IH us ltac:(discriminate) Fps eq_refl) as [ms [f [T' [P' X']]]].
    destruct (term_app _ _ P _ _ P') as [g [Pg Mg]]. exists (ls ++ XWord (lit "AND") :: ms), g. split; [|split; [exact Pg|]].
    + destruct us as [|u us]. { exfalso. cbn [mapM] in Hm. destruct (r p'); [|discriminate]. destruct (mapM r ps'); discriminate. }
      exact (tells_mid d Hd _ _ c_sp (lit "AND ") [XWord (lit "AND")] _ _ T eq_refl and_between T').
    + intros c v. rewrite Mg, X, X'. reflexivity.
Qed.
Lemma bracket_term : forall x t f, term_of t f -> term_of (bracket x t) f.
Proof.
  intros x t f [ls [e [T [P M]]]]. unfold bracket. destruct (needs_brackets x); [|now exists ls, e].
  exists (XSym 40 :: ls ++ [XSym 41]), e. split; [now apply tells_paren; [apply ident_34_96|]|]. split; [|exact M].
  apply t_one, paren_parses, term_search, P.
Qed.
Lemma tree_term : forall x, cond_ok b x -> forall t, r x = Ok t -> term_of t (asks E x).
Proof.
  refine (cond_ok_ind' b _ _ _ _ _).
  - intros k c rk v Ho t T. destruct (one_factor E k c rk v t Ho T) as [ls [e [Tl [P M]]]]. exists ls, e.
    split; [exact Tl|]. split; [now apply t_one|exact M].
  - intros ps NE F t T. rewrite text_unfold in T. cbn [str_body] in T.
    destruct (conds_ok E ps t NE T) as [ts [Hm ->]]. exact (conj_term ps ts NE F Hm).
  - intros o x y IHx IHy t T. rewrite text_unfold in T. cbn [str_body] in T.
    destruct (r x) as [xt|] eqn:Ex; [|discriminate]. cbn [bind] in T.
    destruct (r y) as [yt|] eqn:Ey; [|discriminate]. cbn [bind] in T. injection T as <-.
    destruct (bracket_term x xt _ (IHx xt eq_refl)) as [ls [e [T1 [P1 M1]]]].
    destruct (bracket_term y yt _ (IHy yt eq_refl)) as [ms [f [T2 [P2 M2]]]].
    destruct o.
    + pose proof (tells_mid d Hd _ _ c_sp (lit "AND ") [XWord (lit "AND")] _ _ T1 eq_refl and_between T2) as T3.
      destruct (term_app _ _ P1 _ _ P2) as [g [Pg Mg]].
      exists (XSym 40 :: (ls ++ XWord (lit "AND") :: ms) ++ [XSym 41]), g. split; [|split].
      * exact (tells_paren d Hd _ _ T3).
      * apply t_one, paren_parses, term_search, Pg.
      * intros c v. rewrite Mg, M1, M2. reflexivity.
    + pose proof (tells_mid d Hd _ _ c_sp (lit "OR ") [XWord (lit "OR")] _ _ T1 eq_refl (ltac:(split; reflexivity)) T2) as T3.
      exists (XSym 40 :: (ls ++ XWord (lit "OR") :: ms) ++ [XSym 41]), (SOr e f). split; [|split].
      * exact (tells_paren d Hd _ _ T3).
      * apply t_one, paren_parses, or_search; assumption.
      * intros c v. cbn [truth]. rewrite M1, M2. reflexivity.
  - intros ps NE F t T. rewrite text_unfold in T. cbn [str_body] in T.
    destruct (conds_str r [] ps) as [s|] eqn:Hs; [|discriminate]. cbn [bind] in T. injection T as <-.
    destruct (conds_ok E ps s NE Hs) as [ts [Hm ->]].
    destruct (conj_term ps ts NE F Hm) as [ls [e [Tl [P M]]]].
    exists (XWord (lit "NOT") :: XSym 40 :: ls ++ [XSym 41]), (SNot e). split; [|split].
    + apply (tells_close d Hd) in Tl.
      exact (tells_lead d Hd (lit "NOT(") [XWord (lit "NOT"); XSym 40] _ _ (ltac:(split; reflexivity)) Tl).
    + apply t_one, not_parses, paren_parses, term_search, P.
    + intros c v. cbn [truth]. rewrite M. unfold asks, asked, conj, asked_all. reflexivity.
Qed.

(** A whole clause without its keyword. *)
Lemma conditions_tell : forall ps t, ps <> [] -> Forall (cond_ok b) ps -> conds_str r [] ps = Ok t ->
  exists ls e, tells t ls /\ parses Search ls e /\ says_conditions b ps (Some e).
Proof.
  intros ps t NE F T. destruct (conds_ok E ps t NE T) as [ts [Hm ->]].
  destruct (conj_term ps ts NE (Forall_impl _ (fun x H => tree_term x H) F) Hm) as [ls [e [Tl [P M]]]].
  exists ls, e. split; [exact Tl|]. split; [now apply term_search|]. destruct ps; [contradiction|exact M].
Qed.
Lemma condition_understood : forall x t, cond_ok b x -> r x = Ok t ->
  exists e, understood_condition d t = Some e /\ forall compare value, truth compare value e = asked b compare value x.
Proof.
  intros x t H T. destruct (tree_term x H t T) as [ls [e [Tl [P M]]]].
  exists e. split; [|exact M]. unfold understood_condition. rewrite (tells_lexemes d t ls Tl).
  destruct (search_reads ls e (term_search ls e P)) as [_ R]. specialize (R [] Logic.I). rewrite app_nil_r in R. now rewrite R.
Qed.
End Tree.
