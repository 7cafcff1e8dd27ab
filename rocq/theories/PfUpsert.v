(** Proofs about insert programs with on_duplicate_key_update: C75. *)
From Coq Require Import Lia Sorted.
From Verif Require Import Base BaseFacts NumFmt Value Backend Eq Render RenderFacts ParseArgs Build Queries History
  SpecLex SpecRef SpecLogic SpecHistory SpecArgs SpecErrors SpecClauses SpecWhole SpecSql SpecServer SpecNested SpecSays SpecProgram SpecUpsert
  PfArgs PfErrors PfAccept PfHistories PfSqlExec PfServer PfProgram PfNestStmt.
From Verif Require PfLists.
Open Scope N_scope.

(** ** Rows that agree everywhere are treated alike *)
Section Alike.
  Context (sv : server) (keys : list (list str)).
  Definition eq_row (r s : row) : Prop := forall c, r c = s c.
  Lemma clash_same : forall r r' s s', eq_row r r' -> eq_row s s' -> clash sv keys r s = clash sv keys r' s'.
  Proof.
    intros r r' s s' R S. unfold clash. induction keys as [|key l IH]; [reflexivity|]. cbn [existsb]. rewrite IH. f_equal. clear -R S.
    induction key as [|c key IH]; [reflexivity|]. cbn [forallb]. now rewrite R, S, IH.
  Qed.
  Lemma exists_same : forall l m r s, Forall2 eq_row l m -> eq_row r s -> existsb (fun x => clash sv keys x r) l = existsb (fun x => clash sv keys x s) m.
  Proof. intros l m r s F R. induction F as [|x y l m X F IH]; [reflexivity|]. cbn [existsb]. now rewrite (clash_same x y r s X R), IH. Qed.
  Definition eq_change (f g : option (row -> row)) : Prop :=
    match f, g with
    | Some f, Some g => forall r s, eq_row r s -> eq_row (f r) (g s)
    | None, None => True
    | _, _ => False
    end.
  Lemma one_same : forall re ig f g l m r s, eq_change f g -> Forall2 eq_row l m -> eq_row r s ->
    same_table (insert_one sv keys re ig f l r) (insert_one sv keys re ig g m s).
  Proof.
    intros re ig f g l m r s C F R. unfold insert_one. destruct re.
    - cbn [same_table]. apply Forall2_app; [|now repeat constructor]. induction F as [|x y l m X F IH]; [constructor|]. cbn [filter].
      rewrite (clash_same x y r s X R). destruct (clash sv keys y s); cbn [negb]; [exact IH|now constructor].
    - rewrite (exists_same l m r s F R). destruct (existsb _ m); cbn [negb].
      + destruct f as [f|], g as [g|]; try contradiction; [|destruct ig; cbn [same_table]; [exact F|exact Logic.I]].
        cbn [same_table eq_change] in *. induction F as [|x y l m X F IH]; [constructor|]. cbn [change_first].
        rewrite (clash_same x y r s X R). destruct (clash sv keys y s); constructor; auto. now apply C.
      + cbn [same_table]. apply Forall2_app; [exact F|now repeat constructor].
  Qed.
  Lemma all_same : forall re ig f g news news', eq_change f g -> Forall2 eq_row news news' -> forall l m, Forall2 eq_row l m ->
    same_table (insert_all sv keys re ig f l news) (insert_all sv keys re ig g m news').
  Proof.
    intros re ig f g news news' C N. induction N as [|r s news news' R N IH]; intros l m F; [exact F|]. cbn [insert_all].
    pose proof (one_same re ig f g l m r s C F R) as O.
    destruct (insert_one sv keys re ig f l r), (insert_one sv keys re ig g m s); try contradiction; [apply IH; exact O|exact Logic.I].
  Qed.
End Alike.
Lemma rows_refl : forall l, Forall2 eq_row l l.
Proof. intros l. induction l; constructor; [intros c; reflexivity|assumption]. Qed.

(** ** Columns in alphabetical order *)
Lemma sorted_columns : forall l : list str, exists cols, StronglySorted SpecArgs.before cols /\ forall c, In c cols <-> In c l.
Proof.
  intros l. induction l as [|a l [cols [S I]]]; [exists []; split; [constructor|tauto]|].
  assert (K : forall cols, StronglySorted SpecArgs.before cols -> exists cols', StronglySorted SpecArgs.before cols' /\ forall c, In c cols' <-> c = a \/ In c cols).
  { clear. intros cols S. induction S as [|x cols S [cols' [S' I']] F]; [exists [a]; split; [repeat constructor|intros c; cbn [In]; intuition auto]|].
    destruct (seqb a x) eqn:Q; [apply seqb_eq in Q; subst x; exists (a :: cols); split; [now constructor|intros c; cbn [In]; intuition auto]|].
    assert (NE : a <> x) by (intros ->; now rewrite seqb_refl in Q).
    destruct (sltb a x) eqn:L.
    - apply sltb_before in L. exists (a :: x :: cols). split; [|intros c; cbn [In]; intuition auto]. constructor; [now constructor|]. constructor; [exact L|].
      eapply Forall_impl; [|exact F]. intros y Y. eapply before_trans; eauto.
    - assert (B : SpecArgs.before x a) by (apply before_total; congruence). exists (x :: cols'). split; [|intros c; cbn [In]; rewrite I'; intuition auto].
      constructor; [exact S'|]. rewrite Forall_forall in *. intros y Y. apply I' in Y. destruct Y as [->|Y]; [exact B|now apply F]. }
  destruct (K cols S) as [cols' [S' I']]. exists cols'. split; [exact S'|]. intros c. rewrite I', I. cbn [In]. intuition auto.
Qed.

Section Upsert.
  Context (b : backend) (E : env).
  Let call_of := fun (bo : backend * insop) g => upsert_call b (fst bo) (snd bo) g.
  Lemma upsert_inv : forall b0 t H given, good_name (quote_of b) t -> Forall2 call_of H given ->
    let h := program E ((b0, IInto (VStr t)) :: H) in
    let q := calls ins_step empty_insert h in
    all_succeed ins_step empty_insert h /\ i_tabs q = [MkTable (VStr t) VNone []] /\ i_upd q = [] /\
    i_replace q = replaces b (map snd H) /\ i_ignore q = ignores (map snd H) /\
    (exists outs, i_rows q = map (map the_value) outs /\ Forall2 (row_kept b) (flat_map in_rows given) outs) /\
    exists dups, i_dup q = map the_value dups /\ row_kept b (flat_map in_update given) dups.
  Proof.
    intros b0 t H given G. revert given. induction H as [|[bo op] H IH] using rev_ind; intros given F.
    - inversion F; subst. cbn [program map calls fold_left all_succeed]. cbn [fst snd ins_step empty_insert].
      rewrite (one_table _ _ t G). cbn. repeat split; auto.
      + unfold replaces. now destruct b.
      + exists []. repeat split; constructor.
      + exists []. repeat split; constructor.
    - apply PfLists.Forall2_snoc in F. destruct F as [given' [g [-> [F P]]]]. unfold call_of in P. cbn [fst snd] in P.
      specialize (IH given' F). cbv zeta in IH |- *. rewrite app_comm_cons, PfLists.program_snoc, calls_snoc, map_app. cbn [map snd].
      rewrite !flat_map_app. cbn [flat_map]. rewrite !app_nil_r.
      set (q := calls ins_step empty_insert (program E ((b0, IInto (VStr t)) :: H))) in *.
      destruct IH as [A [T [U [R [I [[outs [V FO]] [dups [D FD]]]]]]]].
      assert (K : exists q', ins_step (pure_world (with_be E bo)) q op = (q', Ok tt) /\ i_tabs q' = i_tabs q /\ i_upd q' = i_upd q /\
        i_replace q' = replaces b (map snd H ++ [op]) /\ i_ignore q' = ignores (map snd H ++ [op]) /\
        (exists outs, i_rows q' = map (map the_value) outs /\ Forall2 (row_kept b) (flat_map in_rows given' ++ in_rows g) outs) /\
        exists dups, i_dup q' = map the_value dups /\ row_kept b (flat_map in_update given' ++ in_update g) dups).
      { assert (RS : is_on_dup op = false -> replaces b (map snd H ++ [op]) = replaces b (map snd H)).
        { intros N. unfold replaces. destruct b; try reflexivity. rewrite existsb_app. cbn [existsb]. now rewrite N, !orb_false_r. }
        assert (IS : ignores (map snd H ++ [op]) = match op with IIgnore v => truthy v | _ => ignores (map snd H) end).
        { unfold ignores. rewrite fold_left_app. reflexivity. }
        destruct q as [rp ig tabs rows dup cf upd]. cbn [i_replace i_ignore i_tabs i_dup i_upd i_rows] in *. subst rows dup upd rp ig.
        rewrite IS. destruct op; try contradiction; cbn [upsert_call] in P.
        - destruct P as [ps [-> [P _]]]. destruct (set_call_effect b (with_be E bo) args kwds ps [] [] P) as [out' [Q [FO' DO']]]; [constructor|constructor|].
          eexists. cbn [ins_step]. unfold rows_add. change (@nil val) with (map the_value []). rewrite Q. cbn [lift1 fst snd]. split; [reflexivity|].
          split; [reflexivity|]. split; [reflexivity|]. split; [symmetry; now apply RS|]. split; [reflexivity|]. cbn [in_rows in_update]. split.
          + exists (outs ++ [out']). split; [cbn [i_rows]; now rewrite map_app|]. apply Forall2_app; [exact FO|]. constructor; [|constructor]. split; assumption.
          + rewrite app_nil_r. exists dups. split; [reflexivity|exact FD].
        - destruct P as [-> P].
          assert (SS : b = BSqlite \/ b = BMySql) by (destruct b; try contradiction; auto). destruct SS as [SB|SB].
          + rewrite SB in P. destruct P as [-> [-> ->]]. eexists. split.
            { cbn [ins_step pure_world w_env with_be e_be]. rewrite SB. reflexivity. }
            split; [reflexivity|]. split; [reflexivity|]. split.
            { unfold replaces. rewrite SB. rewrite existsb_app. cbn. now rewrite orb_true_r. }
            split; [reflexivity|]. cbn [in_rows in_update]. rewrite !app_nil_r. split; [exists outs|exists dups]; split; auto.
          + assert (P' : set_call b args kwds (in_update g) /\ in_rows g = []) by (rewrite SB in P |- *; exact P). clear P. destruct P' as [P1 P2]. destruct FD as [FD1 FD2].
            destruct (set_call_effect b (with_be E b) args kwds (in_update g) (flat_map in_update given') dups P1 FD1 FD2) as [out' [Q [FO' DO']]].
            eexists. split.
            { cbn [ins_step pure_world w_env with_be e_be]. replace (supports_on_duplicate_key_update b) with true by (now rewrite SB).
              replace (supports_on_conflict_do_update b) with false by (now rewrite SB). replace (supports_replace_into b) with false by (now rewrite SB).
              change (values_set _ _ args kwds) with (values_set (pure_world (with_be E b)) (map the_value dups) args kwds). rewrite Q. reflexivity. }
            split; [reflexivity|]. split; [reflexivity|]. split; [unfold replaces; now rewrite SB|]. split; [reflexivity|]. rewrite P2, app_nil_r.
            split; [exists outs; auto|]. exists out'. split; [reflexivity|]. split; assumption.
        - subst g. cbn [in_rows in_update]. rewrite !app_nil_r. eexists. split; [reflexivity|]. split; [reflexivity|]. split; [reflexivity|]. split; [symmetry; now apply RS|]. split; [reflexivity|].
          split; [exists outs|exists dups]; auto. }
      destruct K as [q' [Q [T' [U' [R' [I' [V' D']]]]]]]. split; [apply succeed_snoc; [exact A|]; fold q; now rewrite Q|].
      rewrite Q. cbn [fst]. rewrite T', U', R', I'. auto 10.
  Qed.

  (** What the pairs say. *)
  Lemma pair_value : forall p, set_pair b p -> exists c l, fst p = VStr c /\ name_segments c = [c] /\ good_name (quote_of b) c /\
    stores b [p] = [(c, l)] /\ values (with_be E b) (snd p) (NLiteral l).
  Proof.
    intros [d v] [[c [C [G S]]] V]. cbn [fst snd] in *. subst d. destruct (cell_literal b v V) as [VO [l L]]. exists c, l. split; [reflexivity|]. split; [exact S|]. split; [exact G|].
    split; [unfold stores; cbn [flat_map fst snd]; rewrite L; reflexivity|]. apply vl_plain. cbn [with_be e_be]. unfold plain_said.
    unfold literal_of, value_ok in *. destruct V as [V|[m [-> V]]]; [destruct v; try contradiction|]; split; first [exact L|exact VO|exact Logic.I].
  Qed.
  Lemma cells_said : forall out, Forall (set_pair b) out -> forall c,
    cell_said (with_be E b) (map the_value out) c (NLiteral (given_row b out c)).
  Proof.
    intros out F c. unfold given_row.
    assert (L : (last_for c (named (map the_value out)) = None /\ last_for c (stores b out) = None) \/
                exists x l, last_for c (named (map the_value out)) = Some x /\ values (with_be E b) x (NLiteral l) /\ last_for c (stores b out) = Some l).
    { induction F as [|p out P F IH]; [left; now split|]. destruct (pair_value p P) as [d [l [C [_ [_ [L W]]]]]]. destruct p as [pc v]. cbn [fst snd] in *. subst pc.
      rewrite (stores_app b [(VStr d, v)] out : stores b ((VStr d, v) :: out) = _), L. unfold named in *. cbn [map flat_map the_value fst snd app last_for] in *.
      destruct IH as [[-> ->]|[x [m [-> [Y ->]]]]]; [|right; exists x, m; auto]. destruct (seqb c d); [right; exists v, l; auto|left; auto]. }
    destruct L as [[L1 ->]|[x [l [L1 [L2 ->]]]]]; [now apply ce_none|]. eapply ce_some; eauto.
  Qed.
  Lemma names_given : forall out, Forall (set_pair b) out -> map fst (named (map the_value out)) = map fst (stores b out) /\ Forall (column_cell (with_be E b)) (map the_value out).
  Proof.
    intros out F. induction F as [|p out P F [IH1 IH2]]; [split; [reflexivity|constructor]|]. destruct (pair_value p P) as [d [l [C [S [G [L W]]]]]]. destruct p as [pc v]. cbn [fst snd] in *. subst pc.
    rewrite (stores_app b [(VStr d, v)] out : stores b ((VStr d, v) :: out) = _), L. unfold named in *. cbn [map flat_map the_value fst snd app]. rewrite IH1. split; [reflexivity|].
    constructor; [split; assumption|exact IH2].
  Qed.
  Lemma dup_said : forall dups, Forall (set_pair b) dups -> exists l, Forall2 (assignment (with_be E b)) (map the_value dups) l /\
    literals_in (map snd l) = Some (map snd (stores b dups)) /\ map fst l = map (fun p => [fst p]) (stores b dups).
  Proof.
    intros out F. induction F as [|p out P F [m [IH1 [IH2 IH3]]]]; [exists []; repeat split; constructor|]. destruct (pair_value p P) as [d [l [C [S [G [L W]]]]]]. destruct p as [pc v]. cbn [fst snd] in *. subst pc.
    rewrite (stores_app b [(VStr d, v)] out : stores b ((VStr d, v) :: out) = _), L. cbn [app map fst snd]. exists (([d], NLiteral l) :: m). split; [|split].
    - cbn [the_value fst snd map]. constructor; [|exact IH1]. apply as_; [exact G|exact (f_equal Some S)|exact W].
    - cbn [map snd literals_in literal_in]. now rewrite IH2.
    - cbn [map fst]. now rewrite IH3.
  Qed.

  Lemma upsert_program : forall sv keys old b0 t H given, good_name (quote_of b) t -> Forall2 call_of H given ->
    let rows := flat_map in_rows given in let upd := flat_map in_update given in
    List.concat rows <> [] -> none_returns (stores b upd) ->
    let h := program E ((b0, IInto (VStr t)) :: H) in
    let q := calls ins_step empty_insert h in
    all_succeed ins_step empty_insert h /\
    exists s st out, text (with_be E b) (VInsert q) = Ok s /\ read_statement (dialect_of b) s = Some st /\
      inserts sv keys st (name_segments t) old out /\
      same_table out (insert_all sv keys (replaces b (map snd H)) (ignores (map snd H)) (given_update b upd) old (map (given_row b) rows)).
  Proof.
    intros sv keys old b0 t H given G F rows upd NR NU h q.
    destruct (upsert_inv b0 t H given G F) as [A [T [U [R [I [[outs [V FO]] [dups [D [FD DD]]]]]]]]]. fold h in A. fold h q in T, U, R, I, V, D. fold rows in FO. fold upd in DD.
    split; [exact A|].
    assert (GR : Forall (fun ps => Forall (set_pair b) ps /\ none_returns (stores b ps)) rows).
    { unfold rows. clear -F. induction F as [|[bo op] g H given P F IH]; [constructor|]. cbn [flat_map]. apply Forall_app. split; [|exact IH].
      unfold call_of in P. cbn [fst snd] in P. destruct op; try contradiction; cbn [upsert_call] in P; [| |subst g; constructor].
      - destruct P as [ps [-> [[_ [_ [_ P]]] N]]]. constructor; [now split|constructor].
      - destruct P as [_ P]. destruct b; try contradiction; [destruct P as [_ ->]; constructor|destruct P as [_ [_ ->]]; constructor]. }
    assert (GU : Forall (set_pair b) upd).
    { unfold upd. clear -F. induction F as [|[bo op] g H given P F IH]; [constructor|]. cbn [flat_map]. apply Forall_app. split; [|exact IH].
      unfold call_of in P. cbn [fst snd] in P. destruct op; try contradiction; cbn [upsert_call] in P; [| |subst g; constructor].
      - destruct P as [ps [-> _]]. constructor.
      - destruct P as [_ P]. destruct b; try contradiction; [exact (proj2 (proj2 (proj2 (proj1 P))))|destruct P as [_ [_ ->]]; constructor]. }
    assert (FR : Forall (Forall (set_pair b)) outs) by (clear -FO; induction FO as [|ps out rows outs [P _] FO IH]; constructor; auto).
    destruct (sorted_columns (flat_map (fun out => map fst (stores b out)) outs)) as [cols [SC IC]].
    assert (NE : cols <> []).
    { assert (X : exists c, In c (flat_map (fun out => map fst (stores b out)) outs)).
      { clear -NR FO GR. induction FO as [|ps out rows outs [P DP] FO IH]; [now destruct NR|]. inversion GR as [|? ? [GP _] GR']; subst. cbn [List.concat flat_map] in *.
        destruct ps as [|p ps].
        - destruct (IH NR GR') as [c J]. exists c. apply in_or_app. now right.
        - destruct (stores b out) as [|[c l] r] eqn:Q.
          + exfalso. pose proof (deduped_nil _ _ DP eq_refl) as Q2. clear Q. rename Q2 into Q. apply stores_nil in Q; [discriminate|exact GP].
          + exists c. now left. }
      destruct X as [c X]. apply IC in X. intros ->. destruct X. }
    destruct (dup_said dups FD) as [dl [D1 [D2 D3]]].
    assert (NO : outs <> []) by (intros ->; inversion FO as [Z|]; apply NR; now rewrite <- Z).
    set (rows' := map (fun out => map (fun c => NLiteral (given_row b out c)) cols) outs).
    set (st := NInsert (i_replace q) (i_ignore q) (name_segments t) (map (fun c => [c]) cols) rows' dl).
    assert (SS : statement_said (with_be E b) (VInsert q) st).
    { unfold st. destruct q as [rp ig tabs rws dup cf up]. cbn [i_replace i_ignore i_tabs i_dup i_upd i_rows] in *. subst tabs rws dup up.
      apply sm_insert; auto.
      - intros Q. apply map_eq_nil in Q. now apply NO.
      - clear -FR E. induction FR as [|out outs P FR IH]; constructor; [exact (proj2 (names_given out P))|exact IH].
      - intros c. rewrite IC. clear -FR E. split.
        + intros J. apply in_flat_map in J. destruct J as [out [J1 J2]]. exists (map the_value out). split; [now apply in_map|].
          rewrite Forall_forall in FR. now rewrite (proj1 (names_given out (FR out J1))).
        + intros [row [J1 J2]]. apply in_map_iff in J1. destruct J1 as [out [<- J1]]. apply in_flat_map. exists out. split; [exact J1|].
          rewrite Forall_forall in FR. now rewrite (proj1 (names_given out (FR out J1))) in J2.
      - unfold rows'. clear -FR E. induction FR as [|out outs P FR IH]; cbn [map]; constructor; [|exact IH].
        clear -P E. induction cols as [|c cols IH]; cbn [map]; constructor; [now apply cells_said|exact IH]. }
    destruct (statement_read (with_be E b) _ _ SS) as [s [X1 X2]]. cbn [with_be e_be] in X2.
    exists s, st, (insert_all sv keys (i_replace q) (i_ignore q) (match dl with [] => None | _ => Some (fold_left store (List.combine (map fst dl) (map snd (stores b dups)))) end) old
      (map (fill (map (fun c => [c]) cols)) (map (fun out => map (given_row b out) cols) outs))).
    split; [exact X1|]. split; [exact X2|]. split.
    { unfold st. apply inserts_; [|exact D2]. unfold rows'. clear. induction outs as [|out outs IH]; [reflexivity|]. cbn [map rows_in]. rewrite IH.
      assert (L : literals_in (map (fun c => NLiteral (given_row b out c)) cols) = Some (map (given_row b out) cols))
        by (clear; induction cols as [|c cols IH]; [reflexivity|]; cbn [map literals_in literal_in]; now rewrite IH).
      now rewrite L. }
    rewrite R, I. apply all_same; [| |apply rows_refl].
    - assert (LF : forall c, last_for c (stores b dups) = last_for c (stores b upd)) by (intros c; now apply deduped_last).
      assert (N1 : dups = [] <-> upd = []).
      { split; intros Q.
        - subst dups. apply (stores_nil b); [exact GU|]. apply (deduped_nil _ _ DD). reflexivity.
        - rewrite Q in DD. cbn in DD. inversion DD as [Z1 Z2|? ? ? ? Z1|? ? ? ? ? Z1]; [|destruct full; discriminate Z1|destruct full; discriminate Z1].
          symmetry in Z2. now apply stores_nil in Z2. }
      assert (N2 : dl = [] <-> dups = []).
      { split; intros Q; [subst dl; inversion D1 as [Z|]; symmetry in Z; now apply map_eq_nil in Z|subst dups; inversion D1; reflexivity]. }
      unfold given_update. destruct dl as [|d dl']; destruct upd as [|u upd']; cbn [eq_change]; auto.
      + assert (Z : u :: upd' = []) by tauto. discriminate Z.
      + assert (Z : d :: dl' = []) by tauto. discriminate Z.
      + intros r r' RR c. rewrite fold_store. rewrite D3, <- LF.
        assert (M : map (fun a : path * literal => (column_of (fst a), snd a)) (List.combine (map (fun p : str * literal => [fst p]) (stores b dups)) (map snd (stores b dups))) = stores b dups).
        { clear. induction (stores b dups) as [|[c l] m IH]; [reflexivity|]. cbn [map List.combine fst snd column_of last]. now rewrite IH. }
        match goal with |- match last_for c ?X with _ => _ end = _ => replace X with (stores b dups) by (symmetry; exact M) end. destruct (last_for c (stores b dups)); [reflexivity|apply RR].
    - clear NR. assert (ON : forall out, In out outs -> forall c, fill (map (fun c => [c]) cols) (map (given_row b out) cols) c = given_row b out c).
      { intros out J c. rewrite fill_columns. destruct (existsb (seqb c) cols) eqn:X; [reflexivity|]. unfold given_row.
        rewrite last_for_none; [reflexivity|]. intros Y. assert (Z : In c cols) by (apply IC; apply in_flat_map; eauto).
        assert (W : existsb (seqb c) cols = true) by (apply existsb_exists; exists c; split; [exact Z|apply seqb_refl]). congruence. }
      clear -FO GR ON. induction FO as [|ps out rows outs [P DP] FO IH]; cbn [map]; [constructor|]. inversion GR as [|? ? [GP GN] GR']; subst. constructor.
      + intros c. rewrite ON by (now left). unfold given_row. now rewrite (deduped_last _ _ DP GN).
      + apply IH; [exact GR'|]. intros o J. apply ON. now right.
  Qed.
End Upsert.
