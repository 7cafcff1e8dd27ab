(** Proofs about select programs with options: C92. *)
From Coq Require Import Lia Permutation Sorted.
From Verif Require Import Base BaseFacts NumFmt Value Backend Eq Render RenderFacts ParseArgs Build Queries History
  SpecLex SpecRef SpecLogic SpecConds SpecHistory SpecArgs SpecErrors SpecWhole SpecSql SpecServer SpecProgram SpecJoin SpecDistinct
  PfArgs PfErrors PfAccept PfHistories PfDedupe PfLiterals PfSqlExec PfServer PfProgram PfJoin.
From Verif Require PfOptions.
Open Scope N_scope.

Definition no_opt (op : selop) : bool := match op with SOpt _ _ => false | _ => true end.
Section Options.
  Context (b : backend) (E : env).
  Let call_of := fun (bo : backend * selop) g => join_call b (supper E) (fst bo) (snd bo) g.
  Let call_opt := fun (bo : backend * selop) g => option_call b (supper E) (fst bo) (snd bo) g.
  Lemma split_calls : forall H given, Forall2 call_opt H given ->
    exists given0, Forall2 call_of (filter (fun c => no_opt (snd c)) H) given0 /\
      flat_map as_columns given0 = flat_map as_columns given /\ flat_map as_from given0 = flat_map as_from given /\
      flat_map as_where given0 = flat_map as_where given /\ flat_map as_order given0 = flat_map as_order given.
  Proof.
    intros H given F. induction F as [|[bo op] g H given P F [given0 [A [B [C [D I]]]]]]; [exists []; repeat split; constructor|].
    unfold call_opt in P. cbn [fst snd] in P. destruct P as [op g P|k v].
    - exists (g :: given0). cbn [filter snd].
      replace (no_opt op) with true by (destruct P; reflexivity). split; [now constructor|]. cbn [flat_map]. rewrite B, C, D, I. auto.
    - exists given0. cbn [filter snd no_opt]. split; [exact A|]. cbn [flat_map nothing as_columns as_from as_where as_order app]. auto.
  Qed.
  Lemma step_with : forall W q o op, no_opt op = true -> sel_step W (with_opts q o) op = (with_opts (fst (sel_step W q op)) o, snd (sel_step W q op)).
  Proof.
    intros W [so cols tabs wh gr hv od li ou fu] o op N. destruct op; try discriminate N;
      cbn [sel_step with_opts s_opts s_cols s_tabs s_where s_group s_having s_order s_limit s_out s_forupd]; unfold lift1;
      try match goal with |- context [let (_, _) := ?x in _] => destruct x end; reflexivity.
  Qed.
  Lemma program_filter : forall H, program E (filter (fun c => no_opt (snd c)) H) = filter (fun c => no_opt (snd c)) (program E H).
  Proof. intros H. induction H as [|[bo op] H IH]; [reflexivity|]. unfold program in *. cbn [filter map snd]. destruct (no_opt op); cbn [map]; now rewrite IH. Qed.
  Lemma options_succeed : forall H, let h := filter (fun c => no_opt (snd c)) H in
    all_succeed sel_step empty_select h -> all_succeed sel_step empty_select H /\
      exists o, calls sel_step empty_select H = with_opts (calls sel_step empty_select h) o.
  Proof.
    cbv zeta. intros H. induction H as [|[W op] H IH] using rev_ind; intros A.
    - split; [exact A|]. exists no_selopts. reflexivity.
    - rewrite filter_app in A |- *. cbn [filter snd] in A |- *. destruct (no_opt op) eqn:N.
      + assert (A' : all_succeed sel_step empty_select (filter (fun c => no_opt (snd c)) H) /\
          snd (sel_step W (calls sel_step empty_select (filter (fun c => no_opt (snd c)) H)) op) = Ok tt).
        { revert A. unfold all_succeed. clear. generalize (filter (fun c => no_opt (snd c)) H) as l. generalize empty_select as q.
          intros q l. revert q. induction l as [|[W' op'] l IH]; intros q A; cbn in A |- *; [tauto|]. destruct (sel_step W' q op') as [q' x]. cbn [fst snd] in *.
          destruct A as [A1 A2]. destruct (IH q' A2). tauto. }
        destruct A' as [A1 A2]. destruct (IH A1) as [S [o O]]. split.
        * apply succeed_snoc; [exact S|]. rewrite O, step_with by exact N. exact A2.
        * exists o. rewrite !calls_snoc, O, step_with by exact N. reflexivity.
      + rewrite app_nil_r in A |- *. destruct (IH A) as [S [o O]]. destruct op; try discriminate N. split.
        * apply succeed_snoc; [exact S|]. reflexivity.
        * exists (set_selopt o k (truthy allow)). rewrite calls_snoc, O. cbn [sel_step fst]. generalize (calls sel_step empty_select (filter (fun c => no_opt (snd c)) H)). intros []. reflexivity.
  Qed.
  Lemma distinct_said : forall o opts, Permutation opts (options_asked o) -> existsb distinct_word opts = opt_state o ODistinct || opt_state o ODistinctrow.
  Proof.
    intros o opts P. assert (X : existsb distinct_word opts = existsb distinct_word (options_asked o)).
    { induction P as [|x l m P IH|x y l|l m n P IH P' IH']; [reflexivity|cbn [existsb]; now rewrite IH| |congruence].
      cbn [existsb]. destruct (distinct_word x), (distinct_word y); reflexivity. }
    rewrite X. destruct o as [ca du sm bi bu cf st hi]. destruct ca, du, sm, bi, bu, cf, st, hi; reflexivity.
  Qed.
  Lemma remaining_same : forall (A : Type) d f g (all rows : list A), (forall c, f c = g c) -> (remaining d f all rows <-> remaining d g all rows).
  Proof.
    intros A d f g all rows H. unfold remaining. destruct d; [|tauto].
    assert (X : forall f g, (forall c, f c = g c) -> ForallOrdPairs (fun r s => ~ alike (f r) (f s)) rows -> ForallOrdPairs (fun r s => ~ alike (g r) (g s)) rows).
    { clear. intros f g H F. induction F as [|x l F1 F IH]; constructor; [|exact IH]. eapply Forall_impl; [|exact F1]. intros y. now rewrite !H. }
    assert (Y : forall f g : A -> list (option path * cell_shown), (forall c, f c = g c) ->
      (forall c, In c all -> exists r, In r rows /\ alike (f c) (f r)) -> (forall c, In c all -> exists r, In r rows /\ alike (g c) (g r))).
    { clear. intros f g H F c I. destruct (F c I) as [r [J Z]]. exists r. rewrite <- !H. auto. }
    split; intros [U [B C]]; (split; [exact U|split; [|]]); eauto.
  Qed.

  Lemma option_said : forall q acols aorder srcs (cond : server -> (path -> literal) -> bool) dist lim off,
    s_group q = [] -> s_having q = [] -> o_file (s_out q) = None ->
    Forall2 (table_state b) srcs (s_tabs q) -> NoDup (flat_map names_of srcs) ->
    Forall (cond_ok b) (s_where q) -> (forall sv at_, mirrored sv -> chosen b sv at_ (s_where q) = cond sv at_) ->
    Forall (plain_column b) acols -> first_occurrences acols (s_cols q) ->
    Forall (fun p => exists c, fst p = VStr c /\ good_name (quote_of b) c) aorder -> SpecLists.ordered_list (supper E) aorder (s_order q) ->
    s_limit q = MkLimits lim off -> opt_state (s_opts q) ODistinct || opt_state (s_opts q) ODistinctrow = dist ->
    bounded lim -> bounded off ->
    (forall c a k v, In (c, VStr a) acols -> In (VStr k, v) aorder -> name_segments a <> name_segments k) ->
    (dist = true -> forall k v, In (k, v) aorder ->
       exists c a, In (c, a) (columns_asked acols) /\ (segments c = segments k \/ segments c = [lit "*"])) ->
    exists s st cols order, text (with_be E b) (VSelect q) = Ok s /\ understood (dialect_of b) s = Some st /\
      first_occurrences acols cols /\ SpecLists.ordered_list (supper E) aorder order /\
      forall sv find le db out, mirrored sv -> (option_answers sv find le db st out <->
        rows_asked b sv find le db dist (columns_asked cols) srcs (fun c => cond sv (find c)) order lim off out).
  Proof.
    intros q acols aorder srcs cond dist lim off N2 N3 N4 T ND W S X C2 XO O2 L OI BL BO NA SD.
    assert (PC : Forall (plain_column b) (s_cols q)).
    { rewrite Forall_forall in X |- *. intros p J. apply X. now apply (PfLists.fo_in _ _ _ C2). }
    assert (PO : Forall (fun p => exists c, fst p = VStr c /\ good_name (quote_of b) c) (s_order q)).
    { rewrite Forall_forall in XO |- *. intros [c d] J. destruct O2 as [O2 _].
      assert (J' : In c (map fst aorder)) by (apply (PfLists.fo_in _ _ _ O2); apply in_map_iff; exists (c, d); auto).
      apply in_map_iff in J'. destruct J' as [p [<- J']]. exact (XO p J'). }
    assert (TF : Forall (table_fine b) (s_tabs q)).
    { clear -T ND. induction T as [|x t xs ts Q T IH]; [constructor|]. cbn [flat_map] in ND.
      assert (NX : NoDup (names_of x) /\ NoDup (flat_map names_of xs)).
      { revert ND. generalize (names_of x) as l. generalize (flat_map names_of xs) as m. clear. intros m l. induction l as [|y l IH]; intros N; [split; [constructor|exact N]|].
        inversion N as [|? ? M1 M2]; subst. destruct (IH M2) as [U V]. split; [|exact V]. constructor; [|exact U]. intros J. apply M1. apply in_or_app. now left. }
      constructor; [apply (state_fine b x t Q); tauto|apply IH; tauto]. }
    destruct (select_statement (with_be E b) q) as [s [st [X1 [X2 X3]]]].
    { unfold select_fine. cbn [with_be e_be with_opts s_opts s_cols s_tabs s_where s_group s_having s_order s_limit s_out]. split; [|split; [|split; [|split; [|split; [|split]]]]].
      - eapply Forall_impl; [|exact PC]. intros p [[c [-> Gc]] Al]. split; [exact Gc|]. destruct Al as [-> |[a [-> Ga]]]; [exact Logic.I|exact Ga].
      - exact TF.
      - exact W.
      - rewrite N2. constructor.
      - rewrite N3. constructor.
      - eapply Forall_impl; [|exact PO]. intros p [c [-> Gc]]. exact Gc.
      - exact N4. }
    cbn [with_be e_be] in X2, X3.
    exists s, st, (s_cols q), (s_order q). split; [exact X1|]. split; [exact X2|]. split; [exact C2|]. split; [exact O2|].
    destruct q as [op cols tabs wh gr ha ord lims out fu]. cbn [s_opts s_cols s_tabs s_where s_group s_having s_order s_limit s_out with_opts] in *.
    subst gr ha lims.
    inversion X3 as [? ? ? ? ? ? ? ? ? ? ? op' cols' tabs' wh' gr' ha' ord' Y1 Y2 Y3 Y4 Y5 Y6 Y7]. clear X3. subst.
    pose proof (distinct_said _ _ Y1) as OI.
    inversion Y5; subst. destruct ha'; [contradiction Y6|].
    assert (SA : Forall str_alias (columns_asked cols)).
    { destruct cols as [|p cols]; [constructor; [|constructor]; split; [eexists; reflexivity|now left]|]. cbn [columns_asked].
      eapply Forall_impl; [|exact PC]. intros p' [[c [C _]] Al]. split; [eauto|]. destruct Al as [Al|[a [Al _]]]; eauto. }
    assert (SO : Forall (fun p => exists c, fst p = VStr c) ord) by (eapply Forall_impl; [|exact PO]; intros p [c [C _]]; eauto).
    assert (K : forall sv find, mirrored sv -> forall c, kept (compare sv) (value_in sv find c) wh' = cond sv (find c)).
    { intros sv find MI c. rewrite <- (S sv (find c) MI). apply (kept_chosen b sv (find c) wh wh' Y4). }
    assert (R : forall sv find db, mirrored sv -> all_rows db (map (tree_of sv find) tabs') = all_rows db (map (tree_asked b sv find) srcs)).
    { intros sv find db MI. apply rows_same. clear -T Y3 MI. revert tabs' Y3. induction T as [|x t xs ts Q T IH]; intros tabs' Y; inversion Y as [|? s ? ss Y1 Y2]; subst; cbn [map]; [constructor|].
      constructor; [|now apply IH]. eapply tree_same; eauto. }
    assert (NA' : forall a, In (Some a) (map snd cols') -> ~ In (EColumn a) (map fst ord')).
    { intros a J1 J2. apply in_map_iff in J1. destruct J1 as [[e o] [Q1 J1]]. cbn [snd] in Q1. subst o.
      apply in_map_iff in J2. destruct J2 as [[e2 u] [Q2 J2]]. cbn [fst] in Q2. subst e2.
      assert (Z : exists c x, In (c, VStr x) cols /\ name_segments x = a).
      { clear -Y2 J1 SA. assert (Q : exists c x, In (c, VStr x) (columns_asked cols) /\ name_segments x = a).
        { revert J1 SA. induction Y2 as [|[x al] c' l l' Q F IH]; intros J1 SA; [destruct J1|]. inversion SA as [|? ? [_ S1] S2]; subst. destruct J1 as [-> |J1].
          - inversion Q as [? ? ? ? U V]; subst. cbn [snd] in S1. destruct S1 as [-> |[y ->]]; [discriminate V|]. cbn in V. destruct V as [_ V]. injection V as ->.
            exists x, y. split; [now left|reflexivity].
          - destruct (IH J1 S2) as [c [y [U V]]]. exists c, y. split; [now right|exact V]. }
        destruct Q as [c [x [Q1 Q2]]]. exists c, x. split; [|exact Q2]. destruct cols; [|exact Q1]. destruct Q1 as [Q1|[]]. discriminate Q1. }
      destruct Z as [c [x [J3 <-]]].
      assert (Z : exists k d, In (VStr k, d) ord /\ name_segments k = name_segments x).
      { clear -Y7 J2 SO. revert J2 SO. induction Y7 as [|[y d] o' l l' Q F IH]; intros J2 SO; [destruct J2|]. inversion SO as [|? ? [k S1] S2]; subst. destruct J2 as [-> |J2].
        - cbn [fst] in S1. subst y. exists k, d. split; [now left|]. inversion Q as [? ? U|? ? U]; subst; cbn in U; now injection U.
        - destruct (IH J2 S2) as [k2 [d2 [U V]]]. exists k2, d2. split; [now right|exact V]. }
      destruct Z as [k [d [J4 Z]]].
      assert (J5 : In (VStr k) (map fst (aorder))).
      { destruct O2 as [O2 _]. apply (PfLists.fo_in _ _ _ O2). apply in_map_iff. exists (VStr k, d). auto. }
      apply in_map_iff in J5. destruct J5 as [[k' v] [Q5 J5]]. cbn [fst] in Q5. subst k'.
      apply (NA c x k v); [now apply (PfLists.fo_in _ _ _ C2)|exact J5|now symmetry]. }
    assert (SD' : existsb distinct_word op' = true -> forall e, In e (map fst ord') -> In e (map fst cols') \/ In (EColumn [lit "*"]) (map fst cols')).
    { intros D e J. rewrite OI in D.
      assert (Z : exists k d, In (VStr k, d) ord /\ EColumn (name_segments k) = e).
      { clear -Y7 J SO. revert J SO. induction Y7 as [|[y d] o' l l' Q F IH]; intros J2 SO; [destruct J2|]. inversion SO as [|? ? [k S1] S2]; subst. destruct J2 as [<- |J2].
        - cbn [fst] in S1. subst y. exists k, d. split; [now left|]. inversion Q as [? ? U|? ? U]; subst; cbn in U; now injection U.
        - destruct (IH J2 S2) as [k2 [d2 [U V]]]. exists k2, d2. split; [now right|exact V]. }
      destruct Z as [k [d [J4 <-]]].
      assert (J5 : In (VStr k) (map fst (aorder))).
      { destruct O2 as [O2 _]. apply (PfLists.fo_in _ _ _ O2). apply in_map_iff. exists (VStr k, d). auto. }
      apply in_map_iff in J5. destruct J5 as [[k' v] [Q5 J5]]. cbn [fst] in Q5. subst k'.
      destruct (SD D _ _ J5) as [c [a [J6 Z]]].
      assert (J7 : In (c, a) (columns_asked cols)).
      { destruct (acols) as [|x l] eqn:QC; cbn [columns_asked] in J6.
        - assert (cols = []) as -> by (destruct cols as [|y cols]; [reflexivity|]; exfalso; destruct (proj2 (PfLists.fo_in _ _ _ C2 y) (or_introl eq_refl))). exact J6.
        - apply (PfLists.fo_in _ _ _ C2) in J6. destruct cols; [destruct J6|exact J6]. }
      assert (J8 : In (EColumn (segments c)) (map fst cols')).
      { clear -Y2 J7 SA. revert J7 SA. induction Y2 as [|[x al] c' l l' Q F IH]; intros J7 SA; [destruct J7|]. inversion SA as [|? ? [[n S1] _] S2]; subst. destruct J7 as [J7|J7].
        - injection J7 as -> ->. cbn [fst] in S1. subst c. inversion Q as [? ? ? ? U V]; subst. cbn in U. injection U as <-. left. reflexivity.
        - right. exact (IH J7 S2). }
      destruct Z as [Z|Z]; rewrite Z in J8; [left|right]; exact J8. }
    intros sv find le db res MI. specialize (K sv find MI). specialize (R sv find db MI). split; intros J.
    - inversion J as [? ? ? ? ? ? ? ? rows B1 B2 B3 B6 B4 B5]; subst.
      rewrite (keys_in_same sv find ord ord' Y7 SO) in B5. rewrite R, (filter_ext _ _ K), OI in B4.
      apply (remaining_same _ _ _ _ _ _ (fun c => shown_in_same sv find c _ _ Y2 SA)) in B4.
      rewrite (map_ext _ _ (fun c => shown_in_same sv find c _ _ Y2 SA)). apply arows; assumption.
    - inversion J as [rows B4 B5]; subst. rewrite <- (map_ext _ _ (fun c => shown_in_same sv find c _ _ Y2 SA)).
      apply oans; auto.
      + rewrite R, (filter_ext _ _ K), OI. apply (remaining_same _ _ _ _ _ _ (fun c => shown_in_same sv find c _ _ Y2 SA)). exact B4.
      + rewrite (keys_in_same sv find ord ord' Y7 SO). exact B5.
  Qed.
  Lemma given_plain : forall H given, Forall2 call_of H given ->
    Forall (plain_column b) (flat_map as_columns given) /\ Forall (fun p => exists c, fst p = VStr c /\ good_name (quote_of b) c) (flat_map as_order given).
  Proof.
    intros H given F. split.
    - induction F as [|[bo op] g H given P F IH]; [constructor|]. cbn [flat_map]. apply Forall_app. split; [|exact IH].
      unfold call_of in P. cbn [fst snd] in P. destruct P; cbn [as_columns nothing]; try constructor. assumption.
    - induction F as [|[bo op] g H given P F IH]; [constructor|]. cbn [flat_map]. apply Forall_app. split; [|exact IH].
      unfold call_of in P. cbn [fst snd] in P. destruct P; cbn [as_order nothing]; try constructor. eapply Forall_impl; [|eassumption]. intros p [Y _]. exact Y.
  Qed.
  Lemma option_program : forall H given srcs, Forall2 call_opt H given ->
    tables_asked (flat_map as_from given) = Some srcs -> NoDup (flat_map names_of srcs) ->
    bounded (wanted_limit (map snd H)) -> bounded (wanted_offset (map snd H)) ->
    (forall c a k v, In (c, VStr a) (flat_map as_columns given) -> In (VStr k, v) (flat_map as_order given) -> name_segments a <> name_segments k) ->
    (distinct_asked (map snd H) = true -> forall k v, In (k, v) (flat_map as_order given) ->
       exists c a, In (c, a) (columns_asked (flat_map as_columns given)) /\ (segments c = segments k \/ segments c = [lit "*"])) ->
    let h := program E H in
    let q := calls sel_step empty_select h in
    all_succeed sel_step empty_select h /\
    exists s st cols order, text (with_be E b) (VSelect q) = Ok s /\ understood (dialect_of b) s = Some st /\
      first_occurrences (flat_map as_columns given) cols /\ SpecLists.ordered_list (supper E) (flat_map as_order given) order /\
      forall sv find le db out, mirrored sv -> (option_answers sv find le db st out <->
        rows_asked b sv find le db (distinct_asked (map snd H)) (columns_asked cols) srcs (fun c => where_holds b sv (find c) (flat_map as_where given)) order
          (wanted_limit (map snd H)) (wanted_offset (map snd H)) out).
  Proof.
    intros H1 given1 srcs F1 TA ND BL BO NA SD h q.
    destruct (split_calls H1 given1 F1) as [given [F [Ec [Ef [Ew Eo]]]]]. rewrite <- Ec, <- Eo in NA, SD. rewrite <- Ef in TA. rewrite <- Ec, <- Ew, <- Eo.
    set (H := filter (fun c => no_opt (snd c)) H1) in F.
    destruct (join_inv b E H given srcs F TA ND) as [A0 [[N1 [N2 [N3 N4]]] [T [W [S [[C1 C2] [O1 O2]]]]]]].
    unfold H in A0. rewrite program_filter in A0. destruct (options_succeed _ A0) as [A [opt0 QO]]. rewrite <- program_filter in QO.
    fold h in A, QO. fold H in QO. fold q in QO. set (q0 := calls sel_step empty_select (program E H)) in *. split; [exact A|].
    destruct (given_plain H given F) as [PC PO].
    apply (option_said q (flat_map as_columns given) (flat_map as_order given) srcs (fun sv at_ => where_holds b sv at_ (flat_map as_where given))); auto;
      try (rewrite QO; assumption).
    - rewrite QO. eapply Forall_impl; [|exact W]. apply where_cond_ok.
    - unfold q. rewrite limit_state. unfold h, program. rewrite map_map. reflexivity.
    - unfold q. rewrite !options_inv. unfold h, program. rewrite map_map. reflexivity.
  Qed.
End Options.
