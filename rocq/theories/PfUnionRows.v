(** Lemmas for C77: the rows of unions. *)
From Coq Require Import Lia Permutation Sorted.
From Verif Require Import Base BaseFacts NumFmt Value Backend Eq Render RenderFacts ParseArgs Build Queries History
  SpecLex SpecRef SpecLogic SpecHistory SpecArgs SpecWhole SpecSql SpecServer SpecProgram SpecProgramQ SpecBackends SpecUnion
  PfHistories PfUnion PfSql PfSqlParse PfSqlClauses PfWholeText PfSqlStmt PfServer PfProgram PfProgramQ.
Open Scope N_scope.

(** *** Counting *)
Lemma count_app : forall x l m, count x (l ++ m) = (count x l + count x m)%nat.
Proof. intros. apply count_occ_app. Qed.
Lemma same_counts : forall l m, Permutation l m <-> forall x, count x l = count x m.
Proof. intros. apply Permutation_count_occ. Qed.
Lemma distinct_counts : forall out a c, (NoDup out /\ forall x, In x out <-> In x a \/ In x c) <->
  forall x, count x out = combine_rows UUnion (count x a) (count x c).
Proof.
  intros out a c. split.
  - intros [N I] x. rewrite (NoDup_count_occ row_dec) in N. specialize (N x). fold (count x out) in N.
    pose proof (I x) as J. rewrite !(count_occ_In row_dec) in J. fold (count x out) (count x a) (count x c) in J.
    unfold combine_rows. destruct (count x a + count x c)%nat eqn:Q; lia.
  - intros H. split.
    + apply (NoDup_count_occ row_dec). intros x. fold (count x out). rewrite H. unfold combine_rows. destruct (count x a + count x c)%nat; lia.
    + intros x. rewrite !(count_occ_In row_dec). fold (count x out) (count x a) (count x c). rewrite H. unfold combine_rows.
      destruct (count x a + count x c)%nat eqn:Q; lia.
Qed.
(** A list without the repetitions. *)
Lemma distinct_exists : forall a c : list (list literal), exists out, NoDup out /\ forall x, In x out <-> In x a \/ In x c.
Proof. intros a c. exists (nodup row_dec (a ++ c)). split; [apply NoDup_nodup|]. intros x. now rewrite nodup_In, in_app_iff. Qed.

(** *** The answers to a union, counted *)
Section Answers.
  Context (sv : server) (le : literal -> literal -> bool) (db : database) (n : nat).
  (** [f x] is how often [x] is a row of the SELECT [st]. *)
  Definition counted (st : statement) (f : list literal -> nat) : Prop :=
    bare st /\ width st = n /\ (exists out, rows_of sv le db st out) /\
    forall out, rows_of sv le db st out <-> forall x, count x out = f x.
  Definition kind (t : uniont) : bool := match t with UAll => true | UUnion => false end.
  Lemma counted_exists : forall st f, counted st f -> exists out, rows_of sv le db st out /\ forall x, count x out = f x.
  Proof. intros st f [_ [_ [[out O] I]]]. exists out. split; [exact O|]. now apply I. Qed.
  Lemma union_counted : forall st f l fs, counted st f -> Forall2 (fun p g => counted (snd p) (snd g) /\ fst p = kind (fst g)) l fs ->
    (exists out, union_answers sv le db st l out) /\
    forall out, union_answers sv le db st l out <->
      forall x, count x out = read_left (f x) (map fst fs) (map (fun g => snd g x) fs).
  Proof.
    intros st f l fs C. revert fs. induction l as [|[all st'] l IH] using rev_ind; intros fs F.
    - inversion F; subst. cbn [map read_left]. destruct C as [B [_ [X I]]]. split.
      + destruct X as [out O]. exists out. now constructor.
      + intros out. rewrite <- I. split; [|now constructor]. intros U. inversion U; subst; [assumption| |]; destruct l; discriminate.
    - apply Forall2_app_inv_l in F. destruct F as [fs1 [fs2 [F1 [F2 ->]]]]. inversion F2 as [|? [t g] ? ? [C' K] F3]; subst. inversion F3; subst.
      cbn [fst snd] in C', K. destruct (IH fs1 F1) as [[a A] I1].
      assert (S : forall x, read_left (f x) (map fst (fs1 ++ [(t, g)])) (map (fun h => snd h x) (fs1 ++ [(t, g)])) =
                            combine_rows t (read_left (f x) (map fst fs1) (map (fun h => snd h x) fs1)) (g x)).
      { intros x. rewrite !map_app. rewrite read_left_app by now rewrite !map_length. reflexivity. }
      destruct (counted_exists st' g C') as [c [Cc Cg]]. pose proof C' as [B' [W' [_ I']]]. pose proof C as [_ [W _]].
      assert (Ca := proj1 (I1 a) A). split.
      + destruct all.
        * exists (a ++ c). eapply ua_all; [exact A|exact B'|congruence|exact Cc|apply Permutation_refl].
        * destruct (distinct_exists a c) as [out [O1 O2]]. exists out. eapply ua_distinct; [exact A|exact B'|congruence|exact Cc|exact O1|exact O2].
      + intros out. split.
        * intros U x. rewrite S. inversion U; subst.
          -- destruct l; discriminate.
          -- match goal with Q : _ ++ [_] = _ ++ [_], P : Permutation out (?a1 ++ ?c1), U0 : union_answers _ _ _ _ _ ?a1, R0 : rows_of _ _ _ _ ?c1 |- _ =>
               apply app_inj_tail in Q; destruct Q as [-> Q]; injection Q as Q1 ->; destruct t; [discriminate Q1|]; cbn [combine_rows];
               rewrite (proj1 (same_counts _ _) P x), count_app, (proj1 (I1 a1) U0), (proj1 (I' c1) R0); reflexivity end.
          -- match goal with Q : _ ++ [_] = _ ++ [_], N0 : NoDup out, P : forall x, In x out <-> In x ?a1 \/ In x ?c1, U0 : union_answers _ _ _ _ _ ?a1, R0 : rows_of _ _ _ _ ?c1 |- _ =>
               apply app_inj_tail in Q; destruct Q as [-> Q]; injection Q as Q1 ->; destruct t; [|discriminate Q1];
               rewrite (proj1 (distinct_counts out a1 c1) (Logic.conj N0 P) x), (proj1 (I1 a1) U0), (proj1 (I' c1) R0); reflexivity end.
        * intros H. assert (H' : forall x, count x out = combine_rows t (count x a) (count x c)).
          { intros x. rewrite H, S, Ca, Cg. reflexivity. }
          destruct t; cbn [kind] in K; subst all.
          -- apply distinct_counts in H'. destruct H' as [N P]. eapply ua_distinct; [exact A|exact B'|congruence|exact Cc|exact N|exact P].
          -- eapply ua_all; [exact A|exact B'|congruence|exact Cc|]. apply same_counts. intros x. now rewrite H', count_app.
  Qed.
End Answers.

(** *** Reading the text *)
Section Text.
  Context (E : env).
  Notation d := (dialect_of (e_be E)).
  Notation Hd := (ident_34_96 E).
  (** A text that is a SELECT, also before UNION. *)
  Definition told (s : str) (st : statement) : Prop :=
    exists l, tells d s l /\ forall rest, starts [lit "UNION"] rest -> p_statement (l ++ rest) = Some (st, rest).
  Lemma unions_read : forall ts sts ops s st, List.length ops = List.length ts -> told s st -> Forall2 told ts sts ->
    exists l m, tells d (alternated ops (s :: ts)) (l ++ m) /\ p_statement (l ++ m) = Some (st, m) /\ (List.length ts <= List.length m)%nat /\
      forall k, (List.length ts <= k)%nat -> p_unions k m = Some (List.combine (map kind ops) sts).
  Proof.
    induction ts as [|s' ts IH]; intros sts ops s st L T F; inversion F; subst; destruct ops as [|o ops]; try discriminate.
    - destruct T as [l [Tl P]]. exists l, []. split; [now rewrite app_nil_r|]. split; [apply P; now left|]. split; [apply le_n|].
      intros k _. destruct k; reflexivity.
    - destruct T as [l [Tl P]]. injection L as L.
      match goal with H : told s' ?y, G : Forall2 told ts ?l' |- _ => destruct (IH l' ops s' y L H G) as [l1 [m1 [T1 [P1 [N1 U1]]]]]; rename y into st', l' into sts' end.
      set (u := XWord (lit "UNION") :: (if kind o then [XWord (lit "ALL")] else [])).
      exists l, (u ++ l1 ++ m1). split; [|split; [|split]].
      + cbn [alternated]. unfold union_word. destruct o; [apply (tells_mid d Hd s l c_sp (lit "UNION ") u)|apply (tells_mid d Hd s l c_sp (lit "UNION ALL ") u)];
          try exact Tl; try exact T1; try reflexivity; split; reflexivity.
      + apply P. right. exists (lit "UNION"). eexists. split; [reflexivity|now left].
      + rewrite !app_length. subst u. cbn [List.length]. lia.
      + intros k K. destruct k as [|k]; [cbn in K; lia|]. cbn [List.length] in K. apply le_S_n in K.
        assert (N : keyword (lit "ALL") (l1 ++ m1) = None).
        { clear -P1. destruct (l1 ++ m1) as [|x r]; [reflexivity|]. destruct x; try reflexivity. unfold p_statement in P1. cbn [keyword].
          destruct (seqb w (lit "ALL")) eqn:Q; [|reflexivity]. apply seqb_eq in Q. subst w. discriminate P1. }
        change (p_unions (S k) (u ++ l1 ++ m1)) with
          (let (all, r) := match keyword (lit "ALL") ((if kind o then [XWord (lit "ALL")] else []) ++ l1 ++ m1) with Some r' => (true, r') | None => (false, (if kind o then [XWord (lit "ALL")] else []) ++ l1 ++ m1) end in
           let? (st, r) := p_statement r in let? l := p_unions k r in Some ((all, st) :: l)).
        destruct o; cbn [kind app].
        * rewrite N. cbv beta iota. rewrite P1, (U1 k K). reflexivity.
        * change (keyword (lit "ALL") (XWord (lit "ALL") :: l1 ++ m1)) with (Some (l1 ++ m1)). cbv beta iota. rewrite P1, (U1 k K). reflexivity.
  Qed.
End Text.

(** *** The operands *)
Lemma fo_unique : forall A (l out : list A), first_occurrences l out -> forall out', first_occurrences l out' -> out = out'.
Proof.
  intros A l out F. induction F as [|l out x F IH N|l out x F IH I]; intros out' G.
  - inversion G as [Q|? ? ? ? ? Q|? ? ? ? ? Q]; [reflexivity| |]; destruct l; discriminate.
  - remember (l ++ [x]) as L eqn:Q. destruct G as [|l' o' x' G N'|l' o' x' G I']; [destruct l; discriminate| |];
      apply app_inj_tail in Q; destruct Q as [-> ->]; [now rewrite (IH _ G)|contradiction].
  - remember (l ++ [x]) as L eqn:Q. destruct G as [|l' o' x' G N'|l' o' x' G I']; [destruct l; discriminate| |];
      apply app_inj_tail in Q; destruct Q as [-> ->]; [contradiction|exact (IH _ G)].
Qed.
Definition plain_call (op : selop) : Prop := match op with SColumns _ _ | SFrom _ _ | SWhere _ _ => True | _ => False end.
Lemma plain_frame : forall H q, Forall plain_call (map snd H) ->
  s_order (calls sel_step q H) = s_order q /\ s_limit (calls sel_step q H) = s_limit q /\ s_forupd (calls sel_step q H) = s_forupd q.
Proof.
  induction H as [|[W op] H IH]; intros q F; [repeat split|]. cbn [map snd] in F. inversion F as [|? ? P F']; subst.
  change (calls sel_step q ((W, op) :: H)) with (calls sel_step (fst (sel_step W q op)) H).
  destruct (IH (fst (sel_step W q op)) F') as [A [B C]]. rewrite A, B, C.
  destruct op; try contradiction; cbn [sel_step lift1]; repeat split.
Qed.
Lemma no_limits : forall H, Forall plain_call H -> wanted_limit H = None /\ wanted_offset H = None.
Proof.
  intros H F. unfold wanted_limit, wanted_offset, last_such.
  assert (N : forall A (f : selop -> option A) acc, (forall op, plain_call op -> f op = None) ->
    fold_left (fun acc x => match f x with Some y => Some y | None => acc end) H acc = acc).
  { intros A f. induction F as [|op H P F IH]; intros acc Z; [reflexivity|]. cbn [fold_left]. rewrite (Z op P). now apply IH. }
  split; rewrite N; try reflexivity; intros op P; destruct op; try contradiction; reflexivity.
Qed.
Lemma cells_shown : forall r cols out, Forall cell_column cols -> Forall2 (fun p x => snd p = Cell x) (map (show_column r) cols) out <-> out = cells r cols.
Proof.
  intros r cols. induction cols as [|p cols IH]; intros out F; cbn [map cells].
  - split; [now inversion 1|intros ->; constructor].
  - inversion F as [|? ? [c [C N]] F']; subst.
    assert (Q : snd (show_column r p) = Cell (match fst p with VStr c => column r c | _ => LNull end)).
    { unfold show_column. rewrite C. cbn [snd]. destruct (seqb _ _) eqn:X; [|reflexivity]. apply seqb_eq in X. contradiction. }
    split.
    + intros G. inversion G as [|? x ? out' G1 G2]; subst. rewrite Q in G1. injection G1 as <-. f_equal. now apply IH.
    + intros ->. constructor; [exact Q|]. now apply IH.
Qed.
Lemma rows_shown : forall cols rows out, Forall cell_column cols ->
  Forall2 (Forall2 (fun p x => snd p = Cell x)) (map (fun r => map (show_column r) cols) rows) out <-> out = map (fun r => cells r cols) rows.
Proof.
  intros cols rows. induction rows as [|r rows IH]; intros out F; cbn [map].
  - split; [now inversion 1|intros ->; constructor].
  - split.
    + intros G. inversion G as [|? x ? out' G1 G2]; subst. apply cells_shown in G1; [|exact F]. subst x. f_equal. now apply IH.
    + intros ->. constructor; [now apply cells_shown|now apply IH].
Qed.

Section Operand.
  Context (E : env) (b : backend) (sv : server) (db : database).
  Definition built_query (P : operand_program) : selq val := calls sel_step empty_select (program E (map (pair b) (op_calls P))).
  Lemma operand_counted : forall n P, (0 < n)%nat -> operand_ok E b n P ->
    all_succeed sel_step empty_select (program E (map (pair b) (op_calls P))) /\
    exists s st f, text (with_be E b) (VSelect (built_query P)) = Ok s /\ told (with_be E b) s st /\
      (forall le, counted sv le db n st f) /\ forall x m, times b sv db x P m <-> m = f x.
  Proof.
    intros n [t H given] n0 [G [F [I [Cl [CC [cols [FO LN]]]]]]]. cbn [op_table op_calls op_given] in *. unfold built_query. cbn [op_calls].
    assert (NO : flat_map ab_order given = []).
    { clear -F Cl. induction F as [|op g H given S F IH]; [reflexivity|]. inversion Cl; subst. cbn [flat_map]. rewrite (IH H3), app_nil_r.
      destruct op; try contradiction; cbn [select_call] in S.
      - tauto.
      - destruct S as [_ [_ ->]]. reflexivity.
      - tauto. }
    destruct (no_limits H Cl) as [NL NF].
    destruct (select_objects_fine E b sv db t H given G F I) as [A [[FINE CQ] [s [st [cols' [order [T [U [FC [OL AN]]]]]]]]]];
      [rewrite NL; exact Logic.I|rewrite NF; exact Logic.I|rewrite NO; intros ? ? ? ? _ []|].
    split; [exact A|]. rewrite NO in OL. rewrite NL, NF in AN.
    assert (order = []). { destruct OL as [OL _]. destruct order; [reflexivity|]. cbn [map] in OL. inversion OL as [Q|? ? ? ? ? Q|? ? ? ? ? Q]; destruct l; discriminate. }
    subst order. rewrite (fo_unique _ _ _ FC _ FO) in AN. clear FC cols'.
    assert (CL : Forall cell_column cols).
    { apply Forall_forall. intros p J. rewrite Forall_forall in CC. apply CC. now apply (PfLists.fo_in _ _ _ FO). }
    assert (CA : columns_asked cols = cols) by (destruct cols; [cbn in LN; lia|reflexivity]). rewrite CA in AN.
    set (q := calls sel_step empty_select (program E (map (pair b) H))) in *.
    destruct (plain_frame (program E (map (pair b) H)) empty_select) as [Q1 [Q2 Q3]].
    { unfold program. rewrite !map_map. cbn [snd]. rewrite map_id. exact Cl. }
    fold q in Q1, Q2, Q3.
    assert (FE : select_fine (e_be (with_be E b)) q) by exact FINE.
    destruct (select_told (with_be E b) q s FE T) as [st' [l [S [Tl P]]]].
    assert (st' = st).
    { unfold understood in U. cbn [with_be e_be] in Tl. rewrite (tells_lexemes _ _ _ Tl) in U. specialize (P [] ltac:(now left)). rewrite app_nil_r in P. rewrite P in U. now injection U. }
    subst st'.
    set (wanted := filter (matches_items b sv (flat_map ab_where given)) (db (name_segments t))) in *.
    exists s, st, (fun x => count x (map (fun r => cells r cols) wanted)). split; [exact T|]. split; [exists l; split; assumption|]. split.
    - intros le. assert (R : forall out, rows_of sv le db st out <-> Permutation out (map (fun r => cells r cols) wanted)).
      { intros out. unfold rows_of. split.
        - intros [named [N1 N2]]. apply AN in N1. inversion N1 as [rows R1 R2]; subst. cbn [slice] in N2. apply rows_shown in N2; [|exact CL].
          subst out. now apply Permutation_map.
        - intros PM. apply Permutation_map_inv in PM. destruct PM as [rows [-> PM]]. exists (map (fun r => map (show_column r) cols) rows). split.
          + apply AN. apply (pans le db (name_segments t) cols _ [] None None rows); [now apply Permutation_sym|].
            clear. induction rows as [|r rows IH]; constructor; [exact IH|]. apply Forall_forall. reflexivity.
          + now apply rows_shown. }
      split; [|split; [|split]].
      + clear -S Q1 Q2 Q3. destruct S; cbn in Q1, Q2, Q3; subst. injection Q2 as -> ->.
        match goal with X : Forall2 says_order [] _ |- _ => inversion X; subst end. exact Logic.I.
      + assert (CQ' : s_cols q = cols) by exact (fo_unique _ _ _ CQ _ FO). clear -S CQ' CA LN. destruct S; cbn in CQ' |- *; subst.
        match goal with X : Forall2 says_column (columns_asked _) _ |- _ => apply PfUnion.Forall2_len in X; rewrite CA in X; rewrite <- X; reflexivity end.
      + exists (map (fun r => cells r cols) wanted). apply R. apply Permutation_refl.
      + intros out. rewrite R. apply same_counts.
    - intros x m. unfold times. cbn [op_given op_table]. split.
      + intros [c' [F' ->]]. now rewrite (fo_unique _ _ _ F' _ FO).
      + intros ->. exists cols. split; [exact FO|reflexivity].
  Qed.

  Lemma operandwise_lists : forall A B (R : A -> B -> Prop) e c, operandwise R e c -> Forall2 R (operands e) (operands c) /\ operators e = operators c.
  Proof.
    intros A B R e c O. induction O as [a c R0|t l r l' r' Ol [Il Jl] Or [Ir Jr]]; cbn [operands operators].
    - split; [constructor; [exact R0|constructor]|reflexivity].
    - split; [now apply Forall2_app|now rewrite Jl, Jr].
  Qed.
  Lemma operandwise_shape : forall A B (R : A -> B -> Prop) e c, operandwise R e c -> same_shape c e.
  Proof. intros A B R e c O. induction O; constructor; assumption. Qed.
  Lemma built_exists : forall eq, exists v, built eq v.
  Proof.
    induction eq as [q|t l [a L] r [c R]]; [exists (VSelect q); constructor|].
    assert (X : exists v, py_binop (match t with UAll => OpAnd | UUnion => OpOr end) a c = Ok v).
    { destruct (built_kind _ _ L) as [[q ->]|[? [? [? ->]]]], (built_kind _ _ R) as [[q' ->]|[? [? [? ->]]]];
        cbn [py_binop]; unfold mk_union; cbn; eexists; reflexivity. }
    destruct X as [v V]. exists v. destruct t; [exact (bu_or _ _ _ _ _ L R V)|exact (bu_and _ _ _ _ _ L R V)].
  Qed.
  Lemma operands_counted : forall n ps qs, (0 < n)%nat -> Forall (operand_ok E b n) ps -> Forall2 (fun P q => q = built_query P) ps qs ->
    exists ts sts fs, Forall2 (fun q s => text (with_be E b) (VSelect q) = Ok s) qs ts /\ Forall2 (told (with_be E b)) ts sts /\
      (forall le, Forall2 (counted sv le db n) sts fs) /\
      forall x ms, Forall2 (times b sv db x) ps ms <-> ms = map (fun f => f x) fs.
  Proof.
    intros n ps qs n0 F. revert qs. induction F as [|P ps O F IH]; intros qs G; inversion G as [|? q ? qs' Gq G']; subst.
    - exists [], [], []. split; [constructor|]. split; [constructor|]. split; [constructor|]. intros x ms. split; [now inversion 1|intros ->; constructor].
    - destruct (IH _ G') as [ts [sts [fs [A1 [A2 [A3 A4]]]]]]. destruct (operand_counted n P n0 O) as [_ [s [st [f [B1 [B2 [B3 B4]]]]]]].
      exists (s :: ts), (st :: sts), (f :: fs). split; [now constructor|]. split; [now constructor|]. split; [intros le; constructor; auto|].
      intros x ms. cbn [map]. split.
      + intros T. inversion T as [|? m ? ms' T1 T2]; subst. apply B4 in T1. apply A4 in T2. now subst.
      + intros ->. constructor; [now apply B4|now apply A4].
  Qed.

  Lemma union_rows : forall n e eq, (0 < n)%nat -> Forall (operand_ok E b n) (operands e) -> operandwise (fun P q => q = built_query P) e eq ->
    Forall (fun P => all_succeed sel_step empty_select (program E (map (pair b) (op_calls P)))) (operands e) /\
    exists v s st l, built eq v /\ text (with_be E b) v = Ok s /\ understood_union (dialect_of b) s = Some (st, l) /\
      (forall x, exists c, operandwise (times b sv db x) e c) /\
      forall le, (exists out, union_answers sv le db st l out) /\
        forall out, union_answers sv le db st l out <-> forall x c, operandwise (times b sv db x) e c -> count x out = read_sql c.
  Proof.
    intros n e eq n0 F O. split.
    { apply Forall_forall. intros P I. rewrite Forall_forall in F. exact (proj1 (operand_counted n P n0 (F P I))). }
    destruct (operandwise_lists _ _ _ _ _ O) as [O1 O2].
    destruct (operands_counted n _ _ n0 F O1) as [ts [sts [fs [A1 [A2 [A3 A4]]]]]].
    destruct (built_exists eq) as [v V]. pose proof (operands_length _ eq) as LO.
    destruct (operands_ne _ eq) as [q [qs Q]]. rewrite Q in A1, LO. cbn [List.length] in LO. injection LO as LO.
    inversion A1 as [|? s ? ts' T1 T2]; subst. inversion A2 as [|? st ? sts' S1 S2]; subst.
    assert (FS : exists f fs', fs = f :: fs').
    { specialize (A3 (fun _ _ => true)). inversion A3; subst. eauto. }
    destruct FS as [f [fs' ->]].
    assert (L1 : List.length (operators eq) = List.length ts') by (rewrite <- LO; exact (Forall2_len _ _ _ _ _ T2)).
    destruct (unions_read (with_be E b) ts' sts' (operators eq) s st L1 S1 S2) as [l [m [R1 [R2 [R3 R4]]]]].
    exists v, (alternated (operators eq) (s :: ts')), st, (List.combine (map kind (operators eq)) sts'). split; [exact V|]. split.
    { apply (union_text _ _ _ V). exists (s :: ts'). split; [now rewrite Q|reflexivity]. }
    split.
    { unfold understood_union. rewrite (tells_lexemes _ _ _ R1 : lexemes (dialect_of b) _ = _), R2, (R4 _ R3). reflexivity. }
    assert (EX : forall x, exists c, operandwise (times b sv db x) e c).
    { intros x. clear -F n0. induction e as [P|t l IHl r IHr]; cbn [operands] in F.
      - inversion F as [|? ? O _]; subst. destruct (operand_counted n P n0 O) as [_ [_ [_ [f [_ [_ [_ B4]]]]]]]. exists (ULeaf (f x)). constructor. now apply B4.
      - apply Forall_app in F. destruct F as [Fl Fr]. destruct (IHl Fl) as [l' L], (IHr Fr) as [r' R]. exists (UOp t l' r'). now constructor. }
    split; [exact EX|].
    intros le. specialize (A3 le). inversion A3 as [|? ? ? ? C1 C2]; subst.
    assert (L2 : List.length (operators eq) = List.length sts') by (rewrite L1; exact (Forall2_len _ _ _ _ _ S2)).
    assert (L3 : List.length (operators eq) = List.length fs') by (rewrite L2; exact (Forall2_len _ _ _ _ _ C2)).
    destruct (union_counted sv le db n st f (List.combine (map kind (operators eq)) sts') (List.combine (operators eq) fs') C1) as [X I].
    { clear -C2 L2. revert L2. generalize (operators eq). induction C2 as [|y g l l' C C2 IH]; intros ops L; destruct ops as [|o ops]; try discriminate; constructor.
      - split; [exact C|reflexivity].
      - apply IH. now injection L. }
    split; [exact X|]. intros out. rewrite I.
    assert (M1 : map fst (List.combine (operators eq) fs') = operators eq).
    { clear -L3. revert fs' L3. induction (operators eq) as [|o ops IH]; intros [|g fs'] L; try discriminate; [reflexivity|]. cbn. f_equal. apply IH. now injection L. }
    assert (M2 : forall x, map (fun g => snd g x) (List.combine (operators eq) fs') = map (fun g => g x) fs').
    { intros x. clear -L3. revert fs' L3. induction (operators eq) as [|o ops IH]; intros [|g fs'] L; try discriminate; [reflexivity|]. cbn. f_equal. apply IH. now injection L. }
    assert (K : forall x c, operandwise (times b sv db x) e c -> read_sql c = read_left (f x) (operators eq) (map (fun g => g x) fs')).
    { intros x c O3. destruct (operandwise_lists _ _ _ _ _ O3) as [O4 O5]. apply A4 in O4. unfold read_sql. rewrite O4. cbn [map]. now rewrite <- O5, O2. }
    split.
    - intros H x c O3. now rewrite (K x c O3), H, M1, M2.
    - intros H x. rewrite M1, M2. destruct (EX x) as [c O3]. now rewrite (H x c O3), (K x c O3).
  Qed.
  Lemma union_meant : forall n e eq, (0 < n)%nat -> Forall (operand_ok E b n) (operands e) -> operandwise (fun P q => q = built_query P) e eq ->
    faithful e -> exists v s st l, built eq v /\ text (with_be E b) v = Ok s /\ understood_union (dialect_of b) s = Some (st, l) /\
      forall le out, union_answers sv le db st l out <-> forall x c, operandwise (times b sv db x) e c -> count x out = denoted c.
  Proof.
    intros n e eq n0 F O Fe. destruct (union_rows n e eq n0 F O) as [_ [v [s [st [l [V [T [U [_ A]]]]]]]]].
    exists v, s, st, l. split; [exact V|]. split; [exact T|]. split; [exact U|]. intros le out. rewrite (proj2 (A le) out).
    split; intros H x c Oc; rewrite (H x c Oc); [symmetry|]; apply (proj1 (union_exact _ e) Fe); exact (operandwise_shape _ _ _ _ _ Oc).
  Qed.
End Operand.
