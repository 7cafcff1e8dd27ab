(** Lemmas for C99: unions of any selects. *)
From Coq Require Import Lia Permutation.
From Verif Require Import Base BaseFacts NumFmt Value Backend Eq Render RenderFacts ParseArgs Build Queries History
  SpecLex SpecRef SpecLogic SpecHistory SpecArgs SpecWhole SpecSql SpecServer SpecProgram SpecProgramQ SpecBackends SpecUnion SpecUnionAny
  PfHistories PfUnion PfSql PfSqlParse PfSqlClauses PfWholeText PfSqlStmt PfServer PfUnionRows.
Open Scope N_scope.

Section Answers.
  Context (rows : statement -> list (list literal) -> Prop) (n : nat).
  Definition operator (b : bool) : uniont := if b then UAll else UUnion.
  Lemma realized : forall os o ops, exists a, forall x, count x a = read_left (count x o) ops (map (count x) os).
  Proof.
    induction os as [|c os IH]; intros o ops; destruct ops as [|t ops]; try (exists o; reflexivity).
    destruct t.
    - destruct (distinct_exists o c) as [o' [N I]]. destruct (IH o' ops) as [a A]. exists a. intros x. cbn [map read_left].
      rewrite A. now rewrite (proj1 (distinct_counts o' o c) (Logic.conj N I) x).
    - destruct (IH (o ++ c) ops) as [a A]. exists a. intros x. cbn [map read_left]. rewrite A. now rewrite count_app.
  Qed.
  Lemma unions_of_counts : forall st l out, bare st -> width st = n -> Forall (fun p => bare (snd p) /\ width (snd p) = n) l ->
    (unions_of rows st l out <-> exists o os, rows st o /\ Forall2 (fun p c => rows (snd p) c) l os /\
       forall x, count x out = read_left (count x o) (map (fun p => operator (fst p)) l) (map (count x) os)).
  Proof.
    intros st l out B W F. revert out. induction l as [|[k st'] l IH] using rev_ind; intros out.
    - split.
      + intros U. inversion U; subst; [|destruct l; discriminate|destruct l; discriminate].
        exists a, []. split; [assumption|]. split; [constructor|]. now apply same_counts.
      + intros [o [os [R [G C]]]]. inversion G; subst. apply (uo_one rows st o); [exact B|exact R|]. now apply same_counts.
    - apply Forall_app in F. destruct F as [F F2]. inversion F2 as [|? ? [B' W'] _]; subst. cbn [snd] in B', W'.
      assert (S : forall x o os c, List.length l = List.length os ->
        read_left (count x o) (map (fun p => operator (fst p)) (l ++ [(k, st')])) (map (count x) (os ++ [c])) =
        combine_rows (operator k) (read_left (count x o) (map (fun p => operator (fst p)) l) (map (count x) os)) (count x c)).
      { intros x o os c L. rewrite !map_app. rewrite read_left_app by now rewrite !map_length. reflexivity. }
      split.
      + intros U. inversion U as [|? l1 a ? c ? U1 B1 W1 R1 P1 Q1 Q2|? l1 a ? c ? U1 B1 W1 R1 P1 P2 Q1 Q2]; subst; [destruct l; discriminate| |];
          match goal with Q : _ ++ [_] = _ ++ [_] |- _ => apply app_inj_tail in Q; destruct Q as [-> Q]; injection Q as <- -> end;
          apply (IH F) in U1; destruct U1 as [o [os [R [G C]]]]; exists o, (os ++ [c]);
          (split; [exact R|]); (split; [apply Forall2_app; [exact G|repeat constructor; exact R1]|]); intros x;
          rewrite S by exact (Forall2_len _ _ _ _ _ G); rewrite <- C; cbn [operator].
        * rewrite (proj1 (same_counts _ _) P1 x). apply count_app.
        * now apply distinct_counts.
      + intros [o [os [R [G C]]]]. apply Forall2_app_inv_l in G. destruct G as [os1 [os2 [G1 [G2 ->]]]]. inversion G2 as [|? c ? ? R2 G3]; subst. inversion G3; subst. cbn [snd] in R2.
        destruct (realized os1 o (map (fun p => operator (fst p)) l)) as [a A].
        assert (U : unions_of rows st l a) by (apply (IH F); exists o, os1; auto).
        assert (C' : forall x, count x out = combine_rows (operator k) (count x a) (count x c)).
        { intros x. rewrite C, S by exact (Forall2_len _ _ _ _ _ G1). now rewrite A. }
        destruct k; cbn [operator] in C'.
        * eapply uo_all; [exact U|exact B'|congruence|exact R2|]. apply same_counts. intros x. now rewrite C', count_app.
        * apply distinct_counts in C'. destruct C' as [N P]. eapply uo_distinct; [exact U|exact B'|congruence|exact R2|exact N|exact P].
  Qed.
End Answers.

Lemma relisted : forall A B (R : A -> B -> Prop) e ys, Forall2 R (operands e) ys -> exists c, operandwise R e c /\ operands c = ys.
Proof.
  intros A B R e. induction e as [a|t l IHl r IHr]; intros ys F; cbn [operands] in F.
  - inversion F as [|? y ? ? F1 F2]; subst. inversion F2; subst. exists (ULeaf y). split; [now constructor|reflexivity].
  - apply Forall2_app_inv_l in F. destruct F as [yl [yr [Fl [Fr ->]]]]. destruct (IHl _ Fl) as [cl [Ol <-]], (IHr _ Fr) as [cr [Or <-]].
    exists (UOp t cl cr). split; [now constructor|reflexivity].
Qed.
Lemma counted_lists : forall x c, operands (counted_in x c) = map (count x) (operands c) /\ operators (counted_in x c) = operators c.
Proof.
  intros x c. induction c as [t|o l [A B] r [C D]]; cbn [counted_in operands operators map]; [split; reflexivity|]. rewrite A, B, C, D, map_app. split; reflexivity.
Qed.
Lemma counted_shape : forall A (R : A -> list (list literal) -> Prop) e c x, operandwise R e c -> same_shape (counted_in x c) e.
Proof. intros A R e c x O. induction O; cbn [counted_in]; constructor; assumption. Qed.

Section Any.
  Context (E : env) (rows : statement -> list (list literal) -> Prop).
  Lemma any_read : forall n q, (0 < n)%nat -> any_operand (e_be E) n q ->
    exists s st, text E (VSelect q) = Ok s /\ told E s st /\ (bare st /\ width st = n) /\ forall out, answered rows E q out <-> rows st out.
  Proof.
    intros n q n0 [FE [LN [_ [NO [NL NF]]]]].
    destruct (select_statement E q FE) as [s [st [T [U S]]]].
    destruct (select_told E q s FE T) as [st' [l [S' [Tl P]]]].
    assert (st' = st).
    { unfold understood in U. rewrite (tells_lexemes _ _ _ Tl) in U. specialize (P [] ltac:(now left)). rewrite app_nil_r in P. rewrite P in U. now injection U. }
    subst st'. clear S'. exists s, st. split; [exact T|]. split; [exists l; split; [exact Tl|exact P]|]. split.
    - clear -S NO NL NF LN n0. destruct S; cbn in NO, NL, NF, LN; subst. injection NL as -> ->.
      match goal with X : Forall2 says_order [] _ |- _ => inversion X; subst end. split; [exact Logic.I|].
      match goal with X : Forall2 says_column (columns_asked ?l) _ |- _ => apply PfUnion.Forall2_len in X; destruct l; [cbn in n0; lia|]; cbn [width]; now rewrite <- X end.
    - intros out. split.
      + intros [t [st' [T1 [U1 R1]]]]. rewrite T in T1. injection T1 as <-. rewrite U in U1. now injection U1 as <-.
      + intros R. exists s, st. auto.
  Qed.
  Lemma all_read : forall n qs, (0 < n)%nat -> Forall (any_operand (e_be E) n) qs ->
    exists ts sts, Forall2 (fun q s => text E (VSelect q) = Ok s) qs ts /\ Forall2 (told E) ts sts /\ Forall (fun st => bare st /\ width st = n) sts /\
      forall outs, Forall2 (answered rows E) qs outs <-> Forall2 rows sts outs.
  Proof.
    intros n qs n0 F. induction F as [|q qs O F [ts [sts [A1 [A2 [A3 A4]]]]]].
    - exists [], []. repeat split; try constructor; inversion 1; constructor.
    - destruct (any_read n q n0 O) as [s [st [B1 [B2 [B3 B4]]]]]. exists (s :: ts), (st :: sts). split; [now constructor|]. split; [now constructor|]. split; [now constructor|].
      intros outs. split; intros G; inversion G; subst; constructor; (apply B4 + apply A4); assumption.
  Qed.
  Lemma unions_any : forall n e, (0 < n)%nat -> Forall (any_operand (e_be E) n) (operands e) ->
    exists v s st l, built e v /\ text E v = Ok s /\ understood_union (dialect_of (e_be E)) s = Some (st, l) /\
      forall out, (unions_of rows st l out <-> exists c, operandwise (answered rows E) e c /\ forall x, count x out = read_sql (counted_in x c)) /\
        (faithful e -> (unions_of rows st l out <-> exists c, operandwise (answered rows E) e c /\ forall x, count x out = denoted (counted_in x c))).
  Proof.
    intros n e n0 F.
    destruct (all_read n _ n0 F) as [ts [sts [A1 [A2 [A3 A4]]]]].
    destruct (built_exists e) as [v V]. pose proof (operands_length _ e) as LO.
    destruct (operands_ne _ e) as [q [qs Q]]. rewrite Q in A1, LO. cbn [List.length] in LO. injection LO as LO.
    inversion A1 as [|? s ? ts' T1 T2]; subst. inversion A2 as [|? st ? sts' S1 S2]; subst. inversion A3 as [|? ? [B W] A3']; subst.
    assert (L1 : List.length (operators e) = List.length ts') by (rewrite <- LO; exact (Forall2_len _ _ _ _ _ T2)).
    assert (L2 : List.length (operators e) = List.length sts') by (rewrite L1; exact (Forall2_len _ _ _ _ _ S2)).
    destruct (unions_read E ts' sts' (operators e) s st L1 S1 S2) as [l [m [R1 [R2 [R3 R4]]]]].
    exists v, (alternated (operators e) (s :: ts')), st, (List.combine (map kind (operators e)) sts'). split; [exact V|]. split.
    { apply (union_text _ _ _ V). exists (s :: ts'). split; [now rewrite Q|reflexivity]. }
    split.
    { unfold understood_union. rewrite (tells_lexemes _ _ _ R1 : lexemes (dialect_of (e_be E)) _ = _), R2, (R4 _ R3). reflexivity. }
    assert (M0 : forall ops sts, List.length ops = List.length sts ->
      map snd (List.combine (map kind ops) sts) = sts /\ map (fun p : bool * statement => operator (fst p)) (List.combine (map kind ops) sts) = ops).
    { clear. induction ops as [|o ops IH]; intros [|y sts] L; try discriminate; [split; reflexivity|]. injection L as L. destruct (IH sts L) as [X Y].
      cbn [map List.combine fst snd]. rewrite X, Y. destruct o; split; reflexivity. }
    destruct (M0 _ _ L2) as [M1 M2]. set (l0 := List.combine (map kind (operators e)) sts') in *.
    assert (F0 : Forall (fun p => bare (snd p) /\ width (snd p) = width st) l0).
    { rewrite <- M1 in A3'. clear -A3'. induction l0 as [|p l0 IH]; [constructor|]. cbn [map] in A3'. inversion A3'; subst. constructor; auto. }
    assert (MF : forall os, Forall2 (fun p c => rows (snd p) c) l0 os <-> Forall2 rows sts' os).
    { rewrite <- M1. clear. induction l0 as [|p l0 IH]; intros os; cbn [map].
      - split; intros G; inversion G; constructor.
      - split; intros G; inversion G; subst; (constructor; [assumption|]); now apply IH. }
    intros out. assert (K : unions_of rows st l0 out <-> exists c, operandwise (answered rows E) e c /\ forall x, count x out = read_sql (counted_in x c)).
    { rewrite (unions_of_counts rows (width st) st l0 out B eq_refl F0), M2. split.
      - intros [o [os [R [G C]]]]. apply MF in G.
        destruct (relisted _ _ (answered rows E) e (o :: os)) as [c [O OC]]; [apply A4; now constructor|].
        exists c. split; [exact O|]. intros x. rewrite C. destruct (counted_lists x c) as [X Y]. unfold read_sql. rewrite X, Y, OC. cbn [map].
        now rewrite (proj2 (operandwise_lists _ _ _ _ _ O)).
      - intros [c [O C]]. destruct (operandwise_lists _ _ _ _ _ O) as [O1 O2]. apply A4 in O1. destruct (operands c) as [|o os] eqn:OC; [inversion O1|].
        assert (G : rows st o /\ Forall2 rows sts' os) by (clear -O1; inversion O1; auto). destruct G as [G1 G2].
        exists o, os. split; [exact G1|]. split; [now apply MF|]. intros x. rewrite C. destruct (counted_lists x c) as [X Y]. unfold read_sql. rewrite X, Y, OC. cbn [map].
        now rewrite O2. }
    split; [exact K|]. intros Fe. rewrite K. split; intros [c [O C]]; exists c; (split; [exact O|]); intros x; rewrite C; [symmetry|];
      apply (proj1 (union_exact _ e) Fe); exact (counted_shape _ _ _ _ _ O).
  Qed.
End Any.
