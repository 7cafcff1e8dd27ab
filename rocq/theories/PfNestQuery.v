(** Proofs for C60-C61: the parser of SpecNested.v: tables, queries, statements. *)
From Coq Require Import Lia.
From Verif Require Import Base BaseFacts NumFmt Value SpecLex SpecRef SpecRead SpecLogic BoolFacts LiteralFacts SpecWhole
  SpecSql SpecServer SpecNested PfSql PfSqlParse PfSqlCond PfSqlClauses PfSqlStmt PfNestRead.
Open Scope N_scope.

Section Query.
Context (px : parser nexpr) (pq : parser nquery).

(** ** Tables *)
Lemma from_name : forall p, p <> [] -> reads (p_from pq) dot (path_lexemes p) (FName p).
Proof.
  intros p NE. destruct (column_reads p NE) as [N R]. split; [exact N|]. intros rest S. specialize (R rest S). unfold p_from.
  destruct (path_first p rest NE) as [x [u [X K]]]. rewrite X in *. destruct K as [[s ->]| ->]; unfold p_sub; cbn [sym].
  - now rewrite R.
  - change (42 =? 40) with false. cbv iota. now rewrite R.
Qed.
Lemma from_sub : forall ls q, reads (p_sub pq) [] ls q -> reads (p_from pq) dot ls (FSub q).
Proof. intros ls q [N R]. split; [exact N|]. intros rest S. unfold p_from. now rewrite R by apply stops_nil. Qed.
Definition nojoin (bad : list lexeme) := [XWord (lit "JOIN"); XWord (lit "LEFT"); XWord (lit "RIGHT"); XWord (lit "FULL")] ++ bad.
Lemma njoin_reads : forall t ls f o lc e, reads (p_aliased (p_from pq)) end_alias ls (f, o) ->
  clause_of [lit "ON"] (p_condition px pq) (stop_at Search) lc e ->
  reads (p_njoin px pq) end_join (map XWord (join_words t) ++ ls ++ lc) (NJoin (kind_of_join t) f o e).
Proof.
  intros t ls f o lc e [NE R] C. split; [destruct t; discriminate|]. intros rest S. unfold p_njoin.
  rewrite <- !app_assoc. rewrite joinkind_reads. rewrite R.
  - rewrite (clause_reads _ _ _ _ _ _ _ rest C); [reflexivity| |]; (eapply stops_incl; [|exact S]); intros y; cbn; tauto.
  - destruct C as [[-> _]|[body [y [-> _]]]]; cbn [app]; [|cbn; intuition discriminate].
    eapply stops_incl; [|exact S]. intros y; cbn; tauto.
Qed.
Lemma njoins_read : forall lss ys, Forall2 (reads (p_njoin px pq) end_join) lss ys -> Forall join_starts lss ->
  forall n rest, (List.length lss <= n)%nat -> stops end_table rest -> p_njoins px pq n (joinx [] lss ++ rest) = Some (ys, rest).
Proof.
  intros lss ys F. induction F as [|ls y lss ys [NE R] F IH]; intros S n rest L Sr.
  - cbn [joinx app]. destruct n as [|n]; [reflexivity|]. cbn [p_njoins].
    assert (X : p_joinkind rest = None).
    { unfold p_joinkind. rewrite !(keyword_stop _ end_table rest) by (try exact Sr; cbn; tauto). reflexivity. }
    now rewrite X.
  - destruct n as [|n]; [cbn in L; lia|].
    assert (X : joinx [] (ls :: lss) = ls ++ joinx [] lss) by (destruct lss; cbn; [now rewrite app_nil_r|reflexivity]).
    rewrite X, <- app_assoc. inversion S as [|? ? S1 S2]; subst.
    assert (Z : stops end_join (joinx [] lss ++ rest)).
    { destruct lss as [|m lss].
      - cbn [joinx app]. eapply stops_incl; [|exact Sr]. intros z; cbn; tauto.
      - inversion S2 as [|? ? [w [u [-> I]]] _]; subst. destruct (joinx_first [] (XWord w) u lss) as [v ->]. cbn [app].
        eapply starts_stops; [apply starts_word; exact I|reflexivity]. }
    specialize (R _ Z). cbn [p_njoins].
    assert (J : exists k r, p_joinkind (ls ++ joinx [] lss ++ rest) = Some (k, r)).
    { unfold p_njoin in R. destruct (p_joinkind (ls ++ joinx [] lss ++ rest)) as [[k r0]|]; [eauto|discriminate]. }
    destruct J as [k [r0 J]]. rewrite J, R.
    rewrite IH; [reflexivity|exact S2|cbn in L; lia|exact Sr].
Qed.
Lemma nsource_reads : forall ls f o lss ys, reads (p_aliased (p_from pq)) end_alias ls (f, o) ->
  Forall2 (reads (p_njoin px pq) end_join) lss ys -> Forall join_starts lss ->
  reads (p_nsource px pq) end_table (ls ++ joinx [] lss) (NSource f o ys).
Proof.
  intros ls f o lss ys [NE R] F S. split; [destruct ls; [contradiction|discriminate]|]. intros rest Sr. unfold p_nsource.
  rewrite <- app_assoc. rewrite R.
  - rewrite (njoins_read lss ys F S); [reflexivity| |exact Sr]. rewrite app_length.
    pose proof (joinx_length [] lss (reads_nonempty _ _ _ _ _ F)). lia.
  - destruct lss as [|m lss].
    + cbn [joinx app]. eapply stops_incl; [|exact Sr]. intros z; cbn; tauto.
    + inversion S as [|? ? [w [v' [-> I]]] _]; subst. destruct (joinx_first [] (XWord w) v' lss) as [v'' ->]. cbn [app].
      eapply starts_stops; [apply starts_word; exact I|reflexivity].
Qed.
Lemma nassign_reads : forall p ls x, p <> [] -> reads px dot ls x ->
  reads (p_nassign px) dot (path_lexemes p ++ XSym 61 :: ls) (p, x).
Proof.
  intros p ls x NE [N R]. destruct (column_reads p NE) as [N1 R1].
  split; [destruct (path_lexemes p); [contradiction|discriminate]|]. intros rest S. unfold p_nassign. rewrite <- app_assoc.
  rewrite R1 by (cbn; intuition discriminate). cbn [app sym]. change (61 =? 61) with true. cbv iota. now rewrite R.
Qed.

(** ** SELECT *)
Definition after_core := [lit "UNION"; lit "ORDER"; lit "LIMIT"; lit "OFFSET"; lit "INTO"; lit "FOR"].
Lemma core_reads : forall os lc cs lt ot lw ow lg og lh oh,
  Forall (fun w => existsb (seqb w) select_options = true) os ->
  reads (p_list (p_aliased px)) end_columns lc cs -> okhead lc ->
  clause_of [lit "FROM"] (p_list (p_nsource px pq)) (XSym 44 :: end_table) lt ot ->
  clause_of [lit "WHERE"] (p_condition px pq) (stop_at Search) lw ow ->
  clause_of [lit "GROUP"; lit "BY"] (p_list (p_ordered px)) (XSym 44 :: end_ordered) lg og ->
  clause_of [lit "HAVING"] (p_condition px pq) (stop_at Search) lh oh ->
  forall rest, ends after_core rest ->
  p_core px pq ((XWord (lit "SELECT") :: map XWord os ++ lc ++ lt ++ lw ++ lg ++ lh) ++ rest)
    = Some (NCore os cs (or_nil ot) ow (or_nil og) oh, rest).
Proof.
  intros os lc cs lt ot lw ow lg og lh oh Ko Rc Hc Ct Cw Cg Ch rest S5.
  pose proof (ends_app _ _ _ _ (clause_starts _ _ _ _ _ _ _ Ch) S5) as S4.
  pose proof (ends_app _ _ _ _ (clause_starts _ _ _ _ _ _ _ Cg) S4) as S3.
  pose proof (ends_app _ _ _ _ (clause_starts _ _ _ _ _ _ _ Cw) S3) as S2.
  pose proof (ends_app _ _ _ _ (clause_starts _ _ _ _ _ _ _ Ct) S2) as S1.
  unfold p_core. cbn [app keyword]. rewrite seqb_refl. rewrite <- !app_assoc.
  rewrite options_read; [|exact Ko|].
  2:{ intros w u X. pose proof (okhead_app lc (lt ++ lw ++ lg ++ lh ++ rest) Hc) as K. rewrite X in K. cbn [okhead] in K.
      unfold reserved in K. cbn [existsb] in K. rewrite !orb_false_iff in K. unfold select_options. cbn [existsb]. tauto. }
  rewrite (proj2 Rc) by (eapply ends_stops; [exact S1|reflexivity]).
  rewrite (clause_reads _ _ _ _ _ _ _ _ Ct) by (eapply ends_stops; [exact S2|reflexivity]).
  rewrite (clause_reads _ _ _ _ _ _ _ _ Cw) by (eapply ends_stops; [exact S3|reflexivity]).
  rewrite (clause_reads _ _ _ _ _ _ _ _ Cg) by (eapply ends_stops; [exact S4|reflexivity]).
  rewrite (clause_reads _ _ _ _ _ _ _ _ Ch) by (eapply ends_stops; [exact S5|reflexivity]).
  reflexivity.
Qed.
(** One SELECT of a union, without the clauses of the whole. *)
Definition creads (ls : list lexeme) (c : ncore) : Prop :=
  (exists u, ls = XWord (lit "SELECT") :: u) /\ forall rest, ends after_core rest -> p_core px pq (ls ++ rest) = Some (c, rest).
Definition union_lexemes (a : bool) (ls : list lexeme) : list lexeme :=
  XWord (lit "UNION") :: (if a then [XWord (lit "ALL")] else []) ++ ls.
Definition after_unions := [lit "ORDER"; lit "LIMIT"; lit "OFFSET"; lit "INTO"; lit "FOR"].
Lemma unions_read : forall lss us, Forall2 (fun l u => exists a ls c, l = union_lexemes a ls /\ u = (a, c) /\ creads ls c) lss us ->
  forall n rest, (List.length lss <= n)%nat -> ends after_unions rest -> p_unions px pq n (List.concat lss ++ rest) = Some (us, rest).
Proof.
  intros lss us F. induction F as [|l u lss us [a [ls [c [-> [-> [[v V] R]]]]]] F IH]; intros n rest L S.
  - cbn [List.concat app]. destruct n as [|n]; [reflexivity|]. cbn [p_unions].
    assert (K : keyword (lit "UNION") rest = None).
    { apply (keyword_stop (lit "UNION") [XWord (lit "UNION")]); [now left|]. eapply ends_stops; [exact S|reflexivity]. }
    now rewrite K.
  - destruct n as [|n]; [cbn in L; lia|]. cbn [List.concat]. rewrite <- app_assoc. unfold union_lexemes. cbn [app p_unions keyword].
    rewrite seqb_refl. rewrite <- app_assoc.
    assert (G : p_flag [lit "ALL"] ((if a then [XWord (lit "ALL")] else []) ++ ls ++ List.concat lss ++ rest) = Some (a, ls ++ List.concat lss ++ rest)).
    { apply (flag_reads (lit "ALL") [] a). rewrite V. cbn. intuition discriminate. }
    rewrite G, R.
    + rewrite IH; [reflexivity|cbn in L; lia|exact S].
    + apply (ends_incl ([lit "UNION"] ++ after_unions)); [intros z; cbn; tauto|]. apply ends_app; [|exact S].
      inversion F as [|? ? ? ? [a' [ls' [c' [-> _]]]]]; [now left|]. cbn [List.concat]. unfold union_lexemes. cbn [app].
      apply starts_word. now left.
Qed.
(** INTO OUTFILE. *)
Lemma fields_read : forall lx x ly y, reads px dot lx x -> clause_of [lit "OPTIONALLY"; lit "ENCLOSED"; lit "BY"] px dot ly y ->
  reads (p_fields px) (XWord (lit "OPTIONALLY") :: dot) (lx ++ ly) (x, y).
Proof.
  intros lx x ly y [NE R] C. split; [destruct lx; [contradiction|discriminate]|]. intros rest S. unfold p_fields. rewrite <- app_assoc.
  rewrite R.
  - rewrite (clause_reads _ _ _ _ _ _ _ _ C); [reflexivity| |]; (eapply stops_incl; [|exact S]); intros z; cbn; tauto.
  - destruct C as [[-> _]|[body [v [-> _]]]]; cbn [app]; [|cbn; intuition discriminate].
    eapply stops_incl; [|exact S]. intros z; cbn; tauto.
Qed.
Definition end_out := [XWord (lit "FIELDS"); XWord (lit "OPTIONALLY"); XWord (lit "LINES"); XSym 46].
Lemma out_reads : forall lx x lf f ll l, reads px dot lx x ->
  clause_of [lit "FIELDS"; lit "TERMINATED"; lit "BY"] (p_fields px) (XWord (lit "OPTIONALLY") :: dot) lf f ->
  clause_of [lit "LINES"; lit "TERMINATED"; lit "BY"] px dot ll l ->
  reads (p_out px) end_out (lx ++ lf ++ ll) (NOut x f l).
Proof.
  intros lx x lf f ll l [NE R] Cf Cl. split; [destruct lx; [contradiction|discriminate]|]. intros rest S. unfold p_out. rewrite <- !app_assoc.
  assert (S2 : stops [XWord (lit "FIELDS"); XWord (lit "OPTIONALLY"); XSym 46] (ll ++ rest)).
  { destruct Cl as [[-> _]|[body [v [-> _]]]]; cbn [app map]; [|cbn; intuition discriminate].
    eapply stops_incl; [|exact S]. intros z; cbn; tauto. }
  assert (S1 : stops dot (lf ++ ll ++ rest)).
  { destruct Cf as [[-> _]|[body [v [-> _]]]]; cbn [app map]; [|cbn; intuition discriminate].
    eapply stops_incl; [|exact S2]. intros z; cbn; tauto. }
  rewrite R by exact S1.
  rewrite (clause_reads _ _ _ _ _ _ _ _ Cf); [| |]; [|eapply stops_incl; [|exact S2]; intros z; cbn; tauto|eapply stops_incl; [|exact S2]; intros z; cbn; tauto].
  rewrite (clause_reads _ _ _ _ _ _ _ _ Cl); [reflexivity| |]; (eapply stops_incl; [|exact S]); intros z; cbn; tauto.
Qed.
Definition lock_lexemes (fu : bool) : list lexeme := if fu then map XWord [lit "FOR"; lit "UPDATE"] else [].
Lemma query_reads : forall lc c lss us lo oo l1 a1 l2 a2 lx ox (fu : bool),
  creads lc c -> Forall2 (fun l u => exists a ls c, l = union_lexemes a ls /\ u = (a, c) /\ creads ls c) lss us ->
  clause_of [lit "ORDER"; lit "BY"] (p_list (p_ordered px)) (XSym 44 :: end_ordered) lo oo ->
  clause_of [lit "LIMIT"] p_int [] l1 a1 -> clause_of [lit "OFFSET"] p_int [] l2 a2 ->
  clause_of [lit "INTO"; lit "OUTFILE"] (p_out px) end_out lx ox ->
  forall rest, ends [] rest ->
  p_query px pq ((lc ++ List.concat lss ++ lo ++ l1 ++ l2 ++ lx ++ lock_lexemes fu) ++ rest)
    = Some (NQuery c us (or_nil oo) a1 a2 ox fu, rest).
Proof.
  intros lc c lss us lo oo l1 a1 l2 a2 lx ox fu [_ Rc] F Co C1 C2 Cx rest S0.
  assert (Sf : starts [lit "FOR"] (lock_lexemes fu)) by (destruct fu; [apply starts_word; now left|now left]).
  pose proof (ends_app _ _ _ _ Sf S0) as S6.
  pose proof (ends_app _ _ _ _ (clause_starts _ _ _ _ _ _ _ Cx) S6) as S5.
  pose proof (ends_app _ _ _ _ (clause_starts _ _ _ _ _ _ _ C2) S5) as S4.
  pose proof (ends_app _ _ _ _ (clause_starts _ _ _ _ _ _ _ C1) S4) as S3.
  pose proof (ends_app _ _ _ _ (clause_starts _ _ _ _ _ _ _ Co) S3) as S2.
  assert (Su : starts [lit "UNION"] (List.concat lss)).
  { inversion F as [|? ? ? ? [a' [ls' [c' [-> _]]]]]; [now left|]. cbn [List.concat]. unfold union_lexemes. cbn [app].
    apply starts_word. now left. }
  pose proof (ends_app _ _ _ _ Su S2) as S1.
  unfold p_query. rewrite <- !app_assoc.
  rewrite Rc by (eapply ends_incl; [|exact S1]; intros z; cbn; tauto).
  assert (U : forall r, ends after_unions r -> p_unions px pq (List.length (List.concat lss ++ r)) (List.concat lss ++ r) = Some (us, r)).
  { intros r Sr. apply unions_read; [exact F| |exact Sr]. rewrite app_length.
    assert (G : forall l, Forall2 (fun l u => exists a ls c, l = union_lexemes a ls /\ u = (a, c) /\ creads ls c) l us -> (List.length l <= List.length (List.concat l))%nat).
    { clear. intros l F. induction F as [|l u lss us [a [ls [c [-> _]]]] F IH]; [auto|]. cbn [List.concat List.length]. rewrite app_length.
      unfold union_lexemes at 1. cbn [List.length]. lia. }
    specialize (G lss F). lia. }
  rewrite U by (eapply ends_incl; [|exact S2]; intros z; cbn; tauto).
  rewrite (clause_reads _ _ _ _ _ _ _ _ Co) by (eapply ends_stops; [exact S3|reflexivity]).
  rewrite (clause_reads _ _ _ _ _ _ _ _ C1) by (eapply ends_stops; [exact S4|reflexivity]).
  rewrite (clause_reads _ _ _ _ _ _ _ _ C2) by (eapply ends_stops; [exact S5|reflexivity]).
  rewrite (clause_reads _ _ _ _ _ _ _ _ Cx) by (eapply ends_stops; [exact S6|reflexivity]).
  unfold lock_lexemes. rewrite (flag_reads (lit "FOR") [lit "UPDATE"] fu rest) by (eapply ends_stops; [exact S0|reflexivity]).
  reflexivity.
Qed.

(** ** The other statements *)
Lemma tables_head : forall l ys, reads (p_list (p_nsource px pq)) (XSym 44 :: end_table) l ys -> exists x v, l = x :: v /\ forall w, x <> XWord w.
Proof.
  intros l ys [N R]. specialize (R [] Logic.I). rewrite app_nil_r in R. unfold p_list in R.
  destruct l as [|x v]; [contradiction|]. exists x, v. split; [reflexivity|]. intros w ->. discriminate R.
Qed.
Lemma delete_reads : forall (ig : bool) lt ts lr rs lw ow,
  (lt = [] /\ ts = [] \/ reads (p_list (p_nsource px pq)) (XSym 44 :: end_table) lt ts) ->
  reads (p_list (p_nsource px pq)) (XSym 44 :: end_table) lr rs ->
  clause_of [lit "WHERE"] (p_condition px pq) (stop_at Search) lw ow ->
  p_nstatement px pq (XWord (lit "DELETE") :: (if ig then map XWord [lit "IGNORE"] else []) ++ lt ++ XWord (lit "FROM") :: lr ++ lw)
    = Some (NDelete ig ts rs ow, []).
Proof.
  intros ig lt ts lr rs lw ow Ht Rr Cw.
  pose proof (clause_starts _ _ _ _ _ _ _ Cw) as S1.
  assert (W0 : p_clause [lit "WHERE"] (p_condition px pq) lw = Some (ow, [])).
  { rewrite <- (app_nil_r lw) at 1. now apply (clause_reads _ _ _ _ _ _ _ _ Cw). }
  assert (F0 : p_list (p_nsource px pq) (lr ++ lw) = Some (rs, lw)) by (apply Rr; eapply starts_stops; [exact S1|reflexivity]).
  unfold p_nstatement. replace (seqb (lit "DELETE") (lit "SELECT")) with false by reflexivity.
  replace (seqb (lit "DELETE") (lit "DELETE")) with true by reflexivity. cbv iota.
  destruct Ht as [[-> ->]|Rt].
  - cbn [app]. rewrite (flag_reads (lit "IGNORE") [] ig) by (cbn; intuition discriminate).
    cbn [keyword]. rewrite seqb_refl. rewrite F0, W0. reflexivity.
  - destruct (tables_head lt ts Rt) as [x [v [X N]]].
    rewrite (flag_reads (lit "IGNORE") [] ig) by (rewrite X; now apply nonword_stops).
    rewrite (keyword_stop (lit "FROM") [XWord (lit "FROM")]); [|now left|rewrite X; now apply nonword_stops].
    rewrite (proj2 Rt) by (eapply starts_stops; [apply (starts_word (lit "FROM") _ [lit "FROM"]); now left|reflexivity]).
    cbn [keyword]. rewrite seqb_refl. rewrite F0, W0. reflexivity.
Qed.
Lemma update_reads : forall (ig : bool) lt ts lv vs lw ow,
  reads (p_list (p_nsource px pq)) (XSym 44 :: end_table) lt ts ->
  reads (p_list (p_nassign px)) (XSym 44 :: dot) lv vs ->
  clause_of [lit "WHERE"] (p_condition px pq) (stop_at Search) lw ow ->
  p_nstatement px pq (XWord (lit "UPDATE") :: (if ig then map XWord [lit "IGNORE"] else []) ++ lt ++ XWord (lit "SET") :: lv ++ lw)
    = Some (NUpdate ig ts vs ow, []).
Proof.
  intros ig lt ts lv vs lw ow Rt Rv Cw. pose proof (clause_starts _ _ _ _ _ _ _ Cw) as S1.
  unfold p_nstatement. replace (seqb (lit "UPDATE") (lit "SELECT")) with false by reflexivity.
  replace (seqb (lit "UPDATE") (lit "DELETE")) with false by reflexivity.
  replace (seqb (lit "UPDATE") (lit "UPDATE")) with true by reflexivity. cbv iota.
  destruct (tables_head lt ts Rt) as [x [v [X N]]].
  rewrite (flag_reads (lit "IGNORE") [] ig) by (rewrite X; now apply nonword_stops).
  rewrite (proj2 Rt) by (eapply starts_stops; [apply (starts_word (lit "SET") _ [lit "SET"]); now left|reflexivity]).
  cbn [keyword]. rewrite seqb_refl. rewrite (proj2 Rv) by (eapply starts_stops; [exact S1|reflexivity]).
  rewrite <- (app_nil_r lw). rewrite (clause_reads _ _ _ _ _ _ _ _ Cw) by exact Logic.I. reflexivity.
Qed.
Lemma insert_reads : forall (re ig : bool) p lc cs lr rows ld od, p <> [] ->
  reads (p_bracketed p_column) [] lc cs ->
  reads (p_list (p_bracketed px)) [XSym 44] lr rows ->
  clause_of [lit "ON"; lit "DUPLICATE"; lit "KEY"; lit "UPDATE"] (p_list (p_nassign px)) (XSym 44 :: dot) ld od ->
  (exists u, lc = XSym 40 :: u) ->
  p_nstatement px pq (XWord (if re then lit "REPLACE" else lit "INSERT") :: (if ig then map XWord [lit "IGNORE"] else []) ++ XWord (lit "INTO") ::
      path_lexemes p ++ lc ++ XWord (lit "VALUES") :: lr ++ ld)
    = Some (NInsert re ig p cs rows (or_nil od), []).
Proof.
  intros re ig p lc cs lr rows ld od NE Rc Rr Cd [u U]. destruct (column_reads p NE) as [_ Rp].
  assert (Q : (let? (ig0, r) := p_flag [lit "IGNORE"] ((if ig then map XWord [lit "IGNORE"] else []) ++ XWord (lit "INTO") ::
      path_lexemes p ++ lc ++ XWord (lit "VALUES") :: lr ++ ld) in
    let? r := keyword (lit "INTO") r in
    let? (t, r) := p_column r in
    let? (cs, r) := p_bracketed p_column r in
    let? r := keyword (lit "VALUES") r in
    let? (rows, r) := p_list (p_bracketed px) r in
    let? (dup, r) := p_clause [lit "ON"; lit "DUPLICATE"; lit "KEY"; lit "UPDATE"] (p_list (p_nassign px)) r in
    Some (NInsert re ig0 t cs rows (or_nil dup), r)) = Some (NInsert re ig p cs rows (or_nil od), [])).
  { rewrite (flag_reads (lit "IGNORE") [] ig) by (cbn; intuition discriminate).
    cbn [keyword]. rewrite seqb_refl. rewrite Rp by (rewrite U; cbn; intuition discriminate).
    rewrite (proj2 Rc) by apply stops_nil. cbn [keyword]. rewrite seqb_refl.
    rewrite (proj2 Rr) by (eapply starts_stops; [exact (clause_starts _ _ _ _ _ _ _ Cd)|reflexivity]).
    rewrite <- (app_nil_r ld). rewrite (clause_reads _ _ _ _ _ _ _ _ Cd) by exact Logic.I. reflexivity. }
  destruct re; exact Q.
Qed.
End Query.
