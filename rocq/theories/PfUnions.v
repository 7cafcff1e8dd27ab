(** Lemmas for C98: unions of selects over joined tables. *)
From Coq Require Import Lia Permutation Sorted.
From Verif Require Import Base BaseFacts NumFmt Value Backend Eq Render RenderFacts ParseArgs Build Queries History
  SpecLex SpecRef SpecLogic SpecHistory SpecArgs SpecWhole SpecSql SpecServer SpecProgram SpecProgramQ SpecBackends SpecUnion SpecJoin SpecDistinct SpecObjects SpecUnions
  PfHistories PfUnion PfSql PfSqlParse PfSqlClauses PfWholeText PfSqlStmt PfServer PfUnionRows PfProgram PfJoin PfDistinct PfObjects.
Open Scope N_scope.

(** *** The answers to a union, counted *)
Section Answers.
  Context (sv : server) (find : combination -> path -> literal) (le : literal -> literal -> bool) (db : database) (n : nat).
  Definition settled (st : statement) (f : list literal -> nat) : Prop :=
    bare st /\ width st = n /\ (exists out, joined_rows sv find le db st out) /\
    forall out, joined_rows sv find le db st out <-> forall x, count x out = f x.
  Lemma settled_exists : forall st f, settled st f -> exists out, joined_rows sv find le db st out /\ forall x, count x out = f x.
  Proof. intros st f [_ [_ [[out O] I]]]. exists out. split; [exact O|]. now apply I. Qed.
  Lemma unions_settled : forall st f l fs, settled st f -> Forall2 (fun p g => settled (snd p) (snd g) /\ fst p = kind (fst g)) l fs ->
    (exists out, unions sv find le db st l out) /\
    forall out, unions sv find le db st l out <->
      forall x, count x out = read_left (f x) (map fst fs) (map (fun g => snd g x) fs).
  Proof.
    intros st f l fs C. revert fs. induction l as [|[all st'] l IH] using rev_ind; intros fs F.
    - inversion F; subst. cbn [map read_left]. destruct C as [B [_ [X I]]]. split.
      + destruct X as [out O]. exists out. now constructor.
      + intros out. rewrite <- I. split; [|now constructor]. intros U. inversion U; subst; [assumption| |]; destruct l; discriminate.
    - apply Forall2_app_inv_l in F. destruct F as [fs1 [fs2 [F1 [F2 ->]]]]. inversion F2 as [|? [t g] ? ? [C' K] F3]; subst. inversion F3; subst.
      cbn [fst snd] in C', K. destruct (IH fs1 F1) as [[a A] I1].
      assert (S : forall x, read_left (f x) (map fst (fs1 ++ [(t, g)])) (map (fun h => snd h x) (fs1 ++ [(t, g)])) =
                            combine_rows t (read_left (f x) (map fst fs1) (map (fun h => snd h x) fs1)) (g x)).
      { intros x. rewrite !map_app. rewrite read_left_app by now rewrite !map_length. reflexivity. }
      destruct (settled_exists st' g C') as [c [Cc Cg]]. pose proof C' as [B' [W' [_ I']]]. pose proof C as [_ [W _]].
      assert (Ca := proj1 (I1 a) A). split.
      + destruct all.
        * exists (a ++ c). eapply un_all; [exact A|exact B'|congruence|exact Cc|apply Permutation_refl].
        * destruct (distinct_exists a c) as [out [O1 O2]]. exists out. eapply un_distinct; [exact A|exact B'|congruence|exact Cc|exact O1|exact O2].
      + intros out. split.
        * intros U x. rewrite S. inversion U; subst.
          -- destruct l; discriminate.
          -- match goal with Q : _ ++ [_] = _ ++ [_], P : Permutation out (?a1 ++ ?c1), U0 : unions _ _ _ _ _ _ ?a1, R0 : joined_rows _ _ _ _ _ ?c1 |- _ =>
               apply app_inj_tail in Q; destruct Q as [-> Q]; injection Q as Q1 ->; destruct t; [discriminate Q1|]; cbn [combine_rows];
               rewrite (proj1 (same_counts _ _) P x), count_app, (proj1 (I1 a1) U0), (proj1 (I' c1) R0); reflexivity end.
          -- match goal with Q : _ ++ [_] = _ ++ [_], N0 : NoDup out, P : forall x, In x out <-> In x ?a1 \/ In x ?c1, U0 : unions _ _ _ _ _ _ ?a1, R0 : joined_rows _ _ _ _ _ ?c1 |- _ =>
               apply app_inj_tail in Q; destruct Q as [-> Q]; injection Q as Q1 ->; destruct t; [|discriminate Q1];
               rewrite (proj1 (distinct_counts out a1 c1) (Logic.conj N0 P) x), (proj1 (I1 a1) U0), (proj1 (I' c1) R0); reflexivity end.
        * intros H. assert (H' : forall x, count x out = combine_rows t (count x a) (count x c)).
          { intros x. rewrite H, S, Ca, Cg. reflexivity. }
          destruct t; cbn [kind] in K; subst all.
          -- apply distinct_counts in H'. destruct H' as [N P]. eapply un_distinct; [exact A|exact B'|congruence|exact Cc|exact N|exact P].
          -- eapply un_all; [exact A|exact B'|congruence|exact Cc|]. apply same_counts. intros x. now rewrite H', count_app.
  Qed.
End Answers.

(** *** One SELECT without an order: which rows, and how often, is settled *)
Definition cell_expr (e : expr * option path) : Prop := exists p, fst e = EColumn p /\ last p [] <> lit "*".
Section One.
  Context (sv : server) (find : combination -> path -> literal).
  Definition cells_in (cols : list (expr * option path)) (c : combination) : list literal := map (fun e => value_in sv find c (fst e)) cols.
  Lemma show_cell : forall c e, cell_expr e -> show_in sv find c e = (snd e, OneCell (value_in sv find c (fst e))).
  Proof.
    intros c [e a] [p [Q N]]. cbn [fst] in Q. subst e. unfold show_in, shown_at. cbn [fst snd value_in].
    destruct (seqb (last p []) (lit "*")) eqn:X; [|reflexivity]. apply seqb_eq in X. contradiction.
  Qed.
  Lemma cells_in_shown : forall cols c out, Forall cell_expr cols ->
    Forall2 (fun p x => snd p = OneCell x) (map (show_in sv find c) cols) out <-> out = cells_in cols c.
  Proof.
    intros cols c. induction cols as [|e cols IH]; intros out F; cbn [map cells_in].
    - split; [now inversion 1|intros ->; constructor].
    - inversion F as [|? ? F1 F2]; subst. rewrite (show_cell c e F1). split.
      + intros G. inversion G as [|? x ? out' G1 G2]; subst. cbn [snd] in G1. injection G1 as <-. f_equal. now apply IH.
      + intros ->. constructor; [reflexivity|]. now apply IH.
  Qed.
  Lemma rows_in_shown : forall cols rows out, Forall cell_expr cols ->
    Forall2 (Forall2 (fun p x => snd p = OneCell x)) (map (fun c => map (show_in sv find c) cols) rows) out <-> out = map (cells_in cols) rows.
  Proof.
    intros cols rows. induction rows as [|r rows IH]; intros out F; cbn [map].
    - split; [now inversion 1|intros ->; constructor].
    - split.
      + intros G. inversion G as [|? x ? out' G1 G2]; subst. apply cells_in_shown in G1; [|exact F]. subst x. f_equal. now apply IH.
      + intros ->. constructor; [now apply cells_in_shown|now apply IH].
  Qed.
  Lemma alike_cells : forall cols c d, Forall cell_expr cols ->
    (alike (map (show_in sv find c) cols) (map (show_in sv find d) cols) <-> cells_in cols c = cells_in cols d).
  Proof.
    intros cols c d F. unfold alike. induction F as [|e cols F1 F IH]; cbn [map cells_in]; [split; [reflexivity|constructor]|].
    rewrite !(show_cell _ e F1). split.
    - intros G. inversion G as [|? ? ? ? [_ G1] G2]; subst. cbn [snd cell_alike] in G1. rewrite G1. f_equal. now apply IH.
    - intros Q. injection Q as Q1 Q2. constructor; [split; [reflexivity|exact Q1]|]. now apply IH.
  Qed.
  Definition base (distinct : bool) (cols : list (expr * option path)) (all : list combination) : list (list literal) :=
    if distinct then nodup row_dec (map (cells_in cols) all) else map (cells_in cols) all.
  Lemma remaining_cells : forall d cols all out, Forall cell_expr cols ->
    ((exists rows, remaining d (fun c => map (show_in sv find c) cols) all rows /\ out = map (cells_in cols) rows) <-> Permutation out (base d cols all)).
  Proof.
    intros d cols all out F. unfold remaining, base. destruct d.
    - split.
      + intros [rows [[R1 [R2 R3]] ->]]. apply NoDup_Permutation; [|apply NoDup_nodup|].
        * clear R1 R2. induction R3 as [|r rows R R3 IH]; cbn [map]; constructor; [|exact IH].
          intros J. apply in_map_iff in J. destruct J as [s [Q J]]. rewrite Forall_forall in R. apply (R s J). apply alike_cells; [exact F|now symmetry].
        * intros x. rewrite nodup_In, !in_map_iff. split.
          -- intros [r [<- J]]. exists r. auto.
          -- intros [c [<- J]]. destruct (R2 c J) as [r [J2 A]]. apply alike_cells in A; [|exact F]. exists r. auto.
      + intros P. assert (N : NoDup out) by (apply (Permutation_NoDup (Permutation_sym P)); apply NoDup_nodup).
        assert (I : forall x, In x out <-> In x (map (cells_in cols) all)).
        { intros x. rewrite <- (nodup_In row_dec (map (cells_in cols) all)). split; apply Permutation_in; [exact P|now apply Permutation_sym]. }
        assert (X : exists rows, out = map (cells_in cols) rows /\ forall r, In r rows -> In r all).
        { assert (I' : forall x, In x out -> In x (map (cells_in cols) all)) by (intros x; apply I). clear I N P.
          induction out as [|x out IH]; [exists []; split; [reflexivity|intros r []]|].
          destruct IH as [rows [-> J]]; [intros y Y; apply I'; now right|].
          destruct (proj1 (in_map_iff _ _ _) (I' x (or_introl eq_refl))) as [c [<- C]]. exists (c :: rows). split; [reflexivity|].
          intros r [<- |R]; auto. }
        destruct X as [rows [-> J]]. exists rows. split; [|reflexivity]. split; [exact J|]. split.
        * intros c C. destruct (proj1 (in_map_iff _ _ _) (proj2 (I (cells_in cols c)) (in_map _ _ _ C))) as [r [Q R]]. exists r. split; [exact R|].
          apply alike_cells; [exact F|now symmetry].
        * clear -N F. induction rows as [|r rows IH]; [constructor|]. cbn [map] in N. inversion N as [|? ? N1 N2]; subst. constructor; [|now apply IH].
          apply Forall_forall. intros s S A. apply alike_cells in A; [|exact F]. apply N1. rewrite A. now apply in_map.
    - split.
      + intros [rows [P ->]]. now apply Permutation_map.
      + intros P. apply Permutation_map_inv in P. destruct P as [rows [-> P]]. exists rows. split; [now apply Permutation_sym|reflexivity].
  Qed.
  Lemma joined_settled : forall le db opts cols from wh out, Forall cell_expr cols ->
    (joined_rows sv find le db (StSelect opts cols from wh [] None [] None None false) out <->
     Permutation out (base (existsb distinct_word opts) cols (filter (fun c => kept (compare sv) (value_in sv find c) wh) (all_rows db (map (tree_of sv find) from))))).
  Proof.
    intros le db opts cols from wh out F. rewrite <- remaining_cells by exact F. unfold joined_rows. split.
    - intros [named [A S]]. inversion A as [o1 c1 f1 w1 od1 l1 of1 fu1 rows B1 B2 B3 B4 R S1]; subst. cbn [slice] in S.
      apply rows_in_shown in S; [|exact F]. exists rows. auto.
    - intros [rows [R ->]]. exists (map (fun c => map (show_in sv find c) cols) (slice None None rows)). split.
      + constructor; try exact Logic.I; [intros a _ []|intros _ e []|exact R|].
        clear. induction rows as [|r rows IH]; constructor; [exact IH|]. apply Forall_forall. reflexivity.
      + cbn [slice]. now apply rows_in_shown.
  Qed.
End One.

(** *** The operands *)
Section Operand.
  Context (E : env) (sv : server) (find : combination -> path -> literal) (db : database).
  Lemma operand_settled : forall n q, (0 < n)%nat -> plain_operand (e_be E) n q ->
    exists s st f, text E (VSelect q) = Ok s /\ told E s st /\ (forall le, settled sv find le db n st f) /\
      forall le x m, alone E sv find le db x q m <-> m = f x.
  Proof.
    intros n q n0 [FE [CC [LN [NG [NH [NO [NL NF]]]]]]].
    destruct (select_statement E q FE) as [s [st [T [U S]]]].
    destruct (select_told E q s FE T) as [st' [l [S' [Tl P]]]].
    assert (st' = st).
    { unfold understood in U. rewrite (tells_lexemes _ _ _ Tl) in U. specialize (P [] ltac:(now left)). rewrite app_nil_r in P. rewrite P in U. now injection U. }
    subst st'. clear S'.
    destruct q as [op cols tabs wh gr ha ord lims out fu]. cbn [s_opts s_cols s_tabs s_where s_group s_having s_order s_limit s_out s_forupd] in *.
    subst gr ha ord lims fu.
    inversion S as [? ? ? ? ? ? ? ? ? ? ? op' cols' tabs' wh' gr' ha' ord' Y1 Y2 Y3 Y4 Y5 Y6 Y7]. subst.
    inversion Y5; subst. inversion Y7; subst. destruct ha'; [contradiction Y6|].
    assert (CA : columns_asked cols = cols) by (destruct cols; [cbn in n0; lia|reflexivity]). rewrite CA in Y2.
    assert (CE : Forall cell_expr cols').
    { clear -Y2 CC. induction Y2 as [|p e l l' Q F IH]; [constructor|]. inversion CC as [|? ? [c [C N]] CC']; subst. constructor; [|now apply IH].
      inversion Q as [x a e0 al U V]; subst. cbn [fst] in C. subst x. cbn in U. injection U as <-. exists (name_segments c). split; [reflexivity|exact N]. }
    pose proof (joined_settled sv find) as J.
    exists s. eexists. exists (fun x => count x (base sv find (existsb distinct_word op') cols'
      (filter (fun c => kept (compare sv) (value_in sv find c) wh') (all_rows db (map (tree_of sv find) tabs'))))). split; [exact T|]. split; [exists l; split; [exact Tl|exact P]|]. split.
    - intros le. split; [exact Logic.I|]. split; [cbn [width]; symmetry; exact (Forall2_len _ _ _ _ _ Y2)|]. split.
      + eexists. apply J; [exact CE|]. apply Permutation_refl.
      + intros out0. rewrite J by exact CE. apply same_counts.
    - intros le x m. split.
      + intros [t [st [out0 [T1 [U1 [J1 ->]]]]]]. rewrite T in T1. injection T1 as <-. rewrite U in U1. injection U1 as <-.
        apply J in J1; [|exact CE]. revert x. now apply same_counts.
      + intros ->. exists s. eexists. eexists. split; [exact T|]. split; [exact U|]. split; [apply J; [exact CE|apply Permutation_refl]|reflexivity].
  Qed.
  Lemma operands_settled : forall n qs, (0 < n)%nat -> Forall (plain_operand (e_be E) n) qs ->
    exists ts sts fs, Forall2 (fun q s => text E (VSelect q) = Ok s) qs ts /\ Forall2 (told E) ts sts /\
      (forall le, Forall2 (settled sv find le db n) sts fs) /\
      forall le x ms, Forall2 (alone E sv find le db x) qs ms <-> ms = map (fun f => f x) fs.
  Proof.
    intros n qs n0 F. induction F as [|q qs O F [ts [sts [fs [A1 [A2 [A3 A4]]]]]]].
    - exists [], [], []. split; [constructor|]. split; [constructor|]. split; [constructor|]. intros le x ms. split; [now inversion 1|intros ->; constructor].
    - destruct (operand_settled n q n0 O) as [s [st [f [B1 [B2 [B3 B4]]]]]].
      exists (s :: ts), (st :: sts), (f :: fs). split; [now constructor|]. split; [now constructor|]. split; [intros le; constructor; auto|].
      intros le x ms. cbn [map]. split.
      + intros T. inversion T as [|? m ? ms' T1 T2]; subst. apply B4 in T1. apply A4 in T2. now subst.
      + intros ->. constructor; [now apply B4|now apply A4].
  Qed.

  Lemma unions_rows : forall n e, (0 < n)%nat -> Forall (plain_operand (e_be E) n) (operands e) ->
    exists v s st l, built e v /\ text E v = Ok s /\ understood_union (dialect_of (e_be E)) s = Some (st, l) /\
      forall le, (forall x, exists c, operandwise (alone E sv find le db x) e c) /\ (exists out, unions sv find le db st l out) /\
        forall out, unions sv find le db st l out <-> forall x c, operandwise (alone E sv find le db x) e c -> count x out = read_sql c.
  Proof.
    intros n e n0 F.
    destruct (operands_settled n _ n0 F) as [ts [sts [fs [A1 [A2 [A3 A4]]]]]].
    destruct (built_exists e) as [v V]. pose proof (operands_length _ e) as LO.
    destruct (operands_ne _ e) as [q [qs Q]]. rewrite Q in A1, LO. cbn [List.length] in LO. injection LO as LO.
    inversion A1 as [|? s ? ts' T1 T2]; subst. inversion A2 as [|? st ? sts' S1 S2]; subst.
    assert (FS : exists f fs', fs = f :: fs').
    { specialize (A3 (fun _ _ => true)). inversion A3; subst. eauto. }
    destruct FS as [f [fs' ->]].
    assert (L1 : List.length (operators e) = List.length ts') by (rewrite <- LO; exact (Forall2_len _ _ _ _ _ T2)).
    destruct (unions_read E ts' sts' (operators e) s st L1 S1 S2) as [l [m [R1 [R2 [R3 R4]]]]].
    exists v, (alternated (operators e) (s :: ts')), st, (List.combine (map kind (operators e)) sts'). split; [exact V|]. split.
    { apply (union_text _ _ _ V). exists (s :: ts'). split; [now rewrite Q|reflexivity]. }
    split.
    { unfold understood_union. rewrite (tells_lexemes _ _ _ R1 : lexemes (dialect_of (e_be E)) _ = _), R2, (R4 _ R3). reflexivity. }
    intros le.
    assert (EX : forall x, exists c, operandwise (alone E sv find le db x) e c).
    { intros x. clear -F n0. induction e as [q|t l IHl r IHr]; cbn [operands] in F.
      - inversion F as [|? ? O _]; subst. destruct (operand_settled n q n0 O) as [_ [_ [f [_ [_ [_ B4]]]]]]. exists (ULeaf (f x)). constructor. now apply B4.
      - apply Forall_app in F. destruct F as [Fl Fr]. destruct (IHl Fl) as [l' L], (IHr Fr) as [r' R]. exists (UOp t l' r'). now constructor. }
    split; [exact EX|].
    specialize (A3 le). inversion A3 as [|? ? ? ? C1 C2]; subst.
    assert (L2 : List.length (operators e) = List.length sts') by (rewrite L1; exact (Forall2_len _ _ _ _ _ S2)).
    assert (L3 : List.length (operators e) = List.length fs') by (rewrite L2; exact (Forall2_len _ _ _ _ _ C2)).
    destruct (unions_settled sv find le db n st f (List.combine (map kind (operators e)) sts') (List.combine (operators e) fs') C1) as [X I].
    { clear -C2 L2. revert L2. generalize (operators e). induction C2 as [|y g l l' C C2 IH]; intros ops L; destruct ops as [|o ops]; try discriminate; constructor.
      - split; [exact C|reflexivity].
      - apply IH. now injection L. }
    split; [exact X|]. intros out. rewrite I.
    assert (M1 : map fst (List.combine (operators e) fs') = operators e).
    { clear -L3. revert fs' L3. induction (operators e) as [|o ops IH]; intros [|g fs'] L; try discriminate; [reflexivity|]. cbn. f_equal. apply IH. now injection L. }
    assert (M2 : forall x, map (fun g => snd g x) (List.combine (operators e) fs') = map (fun g => g x) fs').
    { intros x. clear -L3. revert fs' L3. induction (operators e) as [|o ops IH]; intros [|g fs'] L; try discriminate; [reflexivity|]. cbn. f_equal. apply IH. now injection L. }
    assert (K : forall x c, operandwise (alone E sv find le db x) e c -> read_sql c = read_left (f x) (operators e) (map (fun g => g x) fs')).
    { intros x c O3. destruct (operandwise_lists _ _ _ _ _ O3) as [O4 O5]. apply A4 in O4. unfold read_sql. rewrite O4. cbn [map]. now rewrite <- O5. }
    split.
    - intros H x c O3. now rewrite (K x c O3), H, M1, M2.
    - intros H x. rewrite M1, M2. destruct (EX x) as [c O3]. now rewrite (H x c O3), (K x c O3).
  Qed.
  Lemma unions_meant : forall n e, (0 < n)%nat -> Forall (plain_operand (e_be E) n) (operands e) -> faithful e ->
    exists v s st l, built e v /\ text E v = Ok s /\ understood_union (dialect_of (e_be E)) s = Some (st, l) /\
      forall le out, unions sv find le db st l out <-> forall x c, operandwise (alone E sv find le db x) e c -> count x out = denoted c.
  Proof.
    intros n e n0 F Fe. destruct (unions_rows n e n0 F) as [v [s [st [l [V [T [U A]]]]]]].
    exists v, s, st, l. split; [exact V|]. split; [exact T|]. split; [exact U|]. intros le out. rewrite (proj2 (proj2 (A le)) out).
    split; intros H x c Oc; rewrite (H x c Oc); [symmetry|]; apply (proj1 (union_exact _ e) Fe); exact (operandwise_shape _ _ _ _ _ Oc).
  Qed.
End Operand.

(** *** The programs *)
Definition unordered (op : selop) : Prop := match op with SOrderBy _ _ | SLimit _ _ | SOffset _ | SForUpdate _ => False | _ => True end.
Lemma unlocked : forall H q, Forall unordered (map snd H) -> s_forupd (calls sel_step q H) = s_forupd q.
Proof.
  induction H as [|[W op] H IH]; intros q F; [reflexivity|]. cbn [map snd] in F. inversion F as [|? ? P F']; subst.
  change (calls sel_step q ((W, op) :: H)) with (calls sel_step (fst (sel_step W q op)) H).
  rewrite (IH (fst (sel_step W q op)) F'). destruct q as [x1 x2 x3 x4 x5 x6 x7 x8 x9 x10].
  destruct op; try contradiction; cbn [sel_step]; unfold lift1; try match goal with |- context [let (_, _) := ?x in _] => destruct x end; reflexivity.
Qed.
Lemma unlimited : forall H, Forall unordered H -> wanted_limit H = None /\ wanted_offset H = None.
Proof.
  intros H F. unfold wanted_limit, wanted_offset, last_such.
  assert (N : forall A (f : selop -> option A) acc, (forall op, unordered op -> f op = None) ->
    fold_left (fun acc x => match f x with Some y => Some y | None => acc end) H acc = acc).
  { intros A f. induction F as [|op H P F IH]; intros acc Z; [reflexivity|]. cbn [fold_left]. rewrite (Z op P). now apply IH. }
  split; rewrite N; try reflexivity; intros op P; destruct op; try contradiction; reflexivity.
Qed.
Section Programs.
  Context (E : env) (b : backend).
  Definition query_of (P : union_operand) : selq val := calls sel_step empty_select (program E (uo_calls P)).
  Lemma operand_plain : forall n P, (0 < n)%nat -> union_operand_ok E b n P ->
    all_succeed sel_step empty_select (program E (uo_calls P)) /\ plain_operand b n (query_of P) /\
    forall sv find le db x m, mirrored sv -> (asked_times b sv find le db x P m <-> alone (with_be E b) sv find le db x (query_of P) m).
  Proof.
    intros n [H given srcs] n0 [F [TA [ND [U [CC [cols [FO LN]]]]]]]. cbn [uo_calls uo_given uo_tables] in *. unfold uo_columns in CC, FO. cbn [uo_given] in CC, FO.
    unfold query_of. cbn [uo_calls].
    assert (U' : Forall unordered (map snd H)) by (clear -U; induction U; constructor; assumption).
    assert (NO : flat_map (fun g => as_order (fst g)) given = []).
    { clear -F U. induction F as [|[bo op] g H given S F IH]; [reflexivity|]. inversion U as [|? ? U1 U2]; subst. cbn [flat_map]. rewrite (IH U2), app_nil_r.
      cbn [fst snd] in S, U1. destruct S as [op g S _|]; [|reflexivity]. destruct S as [op g S|]; [|reflexivity]. destruct S; try reflexivity; contradiction. }
    destruct (unlimited _ U') as [NL NF].
    destruct (select_objects_inv b E H given srcs F TA ND) as [A [[N2 [N3 N4]] [T [W [S [PC [C2 [PO O2]]]]]]]].
    destruct (select_objects_program b E H given srcs F TA ND) as [_ [s [st [cols' [order' [X1 [X2 [X3 [X4 X5]]]]]]]]];
      [rewrite NL; exact Logic.I|rewrite NF; exact Logic.I|rewrite NO; intros ? ? ? ? _ []|rewrite NO; intros _ ? ? []|].
    set (q := calls sel_step empty_select (program E H)) in *.
    assert (Q1 : s_cols q = cols) by exact (fo_unique _ _ _ C2 _ FO).
    assert (Q2 : cols' = cols) by exact (fo_unique _ _ _ X3 _ FO). subst cols'.
    rewrite NO in O2, X4.
    assert (E0 : forall B (f : val * B -> val) (l : list (val * B)), first_occurrences (map fst (@nil (val * val))) (map f l) -> l = []).
    { intros B f l G. destruct l as [|y l]; [reflexivity|]. cbn [map] in G. inversion G as [Q|? ? ? ? ? Q|? ? ? ? ? Q]; destruct l0; discriminate. }
    assert (Q3 : s_order q = []) by exact (E0 _ _ _ (proj1 O2)).
    assert (Q4 : order' = []) by exact (E0 _ _ _ (proj1 X4)). subst order'.
    assert (CL : Forall cell_column cols).
    { apply Forall_forall. intros p J. rewrite Forall_forall in CC. apply CC. now apply (PfLists.fo_in _ _ _ FO). }
    assert (CA : columns_asked cols = cols) by (destruct cols; [cbn in LN; lia|reflexivity]). rewrite CA, NL, NF in X5.
    split; [exact A|]. split.
    - split; [|split; [now rewrite Q1|split; [now rewrite Q1|split; [exact N2|split; [exact N3|split; [exact Q3|split]]]]]].
      + unfold select_fine. split; [|split; [|split; [exact W|split; [|split; [|split; [|exact N4]]]]]].
        * rewrite Forall_forall in PC |- *. intros p J. apply (PfLists.fo_in _ _ _ C2) in J. destruct (PC p J) as [[c [-> Gc]] Al].
          split; [exact Gc|]. destruct Al as [-> |[a [-> Ga]]]; [exact Logic.I|exact Ga].
        * clear -T ND. induction T as [|x t xs ts Q T IH]; [constructor|]. cbn [flat_map] in ND.
          assert (NX : NoDup (names_of x) /\ NoDup (flat_map names_of xs)).
          { revert ND. generalize (names_of x) as l. generalize (flat_map names_of xs) as m. clear. intros m l. induction l as [|y l IH]; intros N; [split; [constructor|exact N]|].
            inversion N as [|? ? M1 M2]; subst. destruct (IH M2) as [U V]. split; [|exact V]. constructor; [|exact U]. intros J. apply M1. apply in_or_app. now left. }
          constructor; [apply (state_fine b x t Q); tauto|apply IH; tauto].
        * rewrite N2. constructor.
        * rewrite N3. constructor.
        * rewrite Q3. constructor.
      + unfold q. rewrite limit_state. unfold program. rewrite map_map.
        transitivity (MkLimits (wanted_limit (map snd H)) (wanted_offset (map snd H))); [reflexivity|]. now rewrite NL, NF.
      + unfold q. rewrite unlocked; [reflexivity|]. unfold program. rewrite map_map. exact U'.
    - intros sv find le db x m MI. unfold asked_times, alone. cbn [uo_calls uo_given uo_tables]. unfold uo_columns. cbn [uo_given with_be e_be]. split.
      + intros [cols1 [named [out [F1 [R1 [S1 ->]]]]]]. rewrite (fo_unique _ _ _ F1 _ FO) in R1. exists s, st, out. split; [exact X1|]. split; [exact X2|]. split; [|reflexivity].
        exists named. split; [now apply X5|exact S1].
      + intros [t [st' [out [T1 [U1 [[named [J1 J2]] ->]]]]]]. rewrite X1 in T1. injection T1 as <-. rewrite X2 in U1. injection U1 as <-.
        exists cols, named, out. split; [exact FO|]. split; [now apply X5|]. split; [exact J2|reflexivity].
  Qed.
  Lemma asked_alone : forall n e eq sv find le db x c, (0 < n)%nat -> mirrored sv -> Forall (union_operand_ok E b n) (operands e) ->
    operandwise (fun P q => q = query_of P) e eq ->
    (operandwise (asked_times b sv find le db x) e c <-> operandwise (alone (with_be E b) sv find le db x) eq c).
  Proof.
    intros n e eq sv find le db x c n0 MI F O. revert c. induction O as [P q ->|t l r l' r' Ol IHl Or IHr]; intros c; cbn [operands] in F.
    - inversion F as [|? ? F1 _]; subst. destruct (operand_plain n P n0 F1) as [_ [_ X]].
      split; intros G; inversion G; subst; constructor; now apply X.
    - apply Forall_app in F. destruct F as [Fl Fr]. split; intros G; inversion G; subst; constructor; (apply IHl + apply IHr); assumption.
  Qed.
  Lemma operands_plain : forall n e eq, (0 < n)%nat -> Forall (union_operand_ok E b n) (operands e) -> operandwise (fun P q => q = query_of P) e eq ->
    Forall (fun P => all_succeed sel_step empty_select (program E (uo_calls P))) (operands e) /\ Forall (plain_operand b n) (operands eq).
  Proof.
    intros n e eq n0 F O. destruct (operandwise_lists _ _ _ _ _ O) as [O1 _]. clear O. induction O1 as [|P q ps qs -> O1 IH]; [split; constructor|].
    inversion F as [|? ? F1 F2]; subst. destruct (operand_plain n P n0 F1) as [A [B _]]. destruct (IH F2) as [C D]. split; constructor; assumption.
  Qed.
  Lemma unions_asked : forall sv find db n e eq, (0 < n)%nat -> mirrored sv -> Forall (union_operand_ok E b n) (operands e) ->
    operandwise (fun P q => q = query_of P) e eq ->
    Forall (fun P => all_succeed sel_step empty_select (program E (uo_calls P))) (operands e) /\
    exists v s st l, built eq v /\ text (with_be E b) v = Ok s /\ understood_union (dialect_of b) s = Some (st, l) /\
      forall le, (forall x, exists c, operandwise (asked_times b sv find le db x) e c) /\ (exists out, unions sv find le db st l out) /\
        forall out, (unions sv find le db st l out <-> forall x c, operandwise (asked_times b sv find le db x) e c -> count x out = read_sql c) /\
          (faithful e -> (unions sv find le db st l out <-> forall x c, operandwise (asked_times b sv find le db x) e c -> count x out = denoted c)).
  Proof.
    intros sv find db n e eq n0 MI F O. destruct (operands_plain n e eq n0 F O) as [A B]. split; [exact A|].
    destruct (unions_rows (with_be E b) sv find db n eq n0 B) as [v [s [st [l [V [T [U X]]]]]]].
    exists v, s, st, l. split; [exact V|]. split; [exact T|]. split; [exact U|]. intros le. destruct (X le) as [X1 [X2 X3]].
    split; [|split; [exact X2|]].
    - intros x. destruct (X1 x) as [c C]. exists c. now apply (asked_alone n e eq sv find le db x c n0 MI F O).
    - intros out. assert (K : unions sv find le db st l out <-> forall x c, operandwise (asked_times b sv find le db x) e c -> count x out = read_sql c).
      { rewrite X3. split; intros G x c C; apply G; now apply (asked_alone n e eq sv find le db x c n0 MI F O). }
      split; [exact K|]. intros Fe. rewrite K. split; intros G x c C; rewrite (G x c C); [symmetry|]; apply (proj1 (union_exact _ e) Fe); exact (operandwise_shape _ _ _ _ _ C).
  Qed.
End Programs.
