(** Proofs about programs over several tables with conditions made by Q, Not, & and |: C93. *)
From Coq Require Import Lia Permutation Sorted.
From Verif Require Import Base BaseFacts NumFmt Value Backend Eq Render RenderFacts ParseArgs Build Queries History
  SpecLex SpecRef SpecLogic SpecConds SpecHistory SpecArgs SpecErrors SpecWhole SpecSql SpecServer SpecProgram SpecProgramQ SpecJoin SpecMulti SpecDistinct SpecObjects
  PfArgs PfErrors PfAccept PfHistories PfDedupe PfLiterals PfSqlExec PfServer PfProgram PfJoin PfProgramQ PfMulti PfDistinct.
Open Scope N_scope.

(** ** Calls that set one part of the state apart from the others *)
Section Apart.
  Context (E : env) (Q Op X : Type) (step : world -> Q -> Op -> Q * outcome) (empty : Q) (put : Q -> list val -> Q)
    (mine : Op -> bool)
    (apart : forall W q w op, mine op = false -> step W (put q w) op = (put (fst (step W q op)) w, snd (step W q op)))
    (start : empty = put empty []).
  Context (R : backend * Op -> X -> Prop) (wanted : X -> list where_item)
    (good : list val -> list where_item -> Prop) (good_nil : good [] [])
    (quiet : forall bo op x, R (bo, op) x -> mine op = false -> wanted x = [])
    (adds : forall bo op x q w ts, R (bo, op) x -> mine op = true -> good w ts ->
       exists w', step (pure_world (with_be E bo)) (put q w) op = (put q w', Ok tt) /\ good w' (ts ++ wanted x)).
  Let other (c : backend * Op) := negb (mine (snd c)).
  Lemma apart_calls : forall H given, Forall2 R H given ->
    all_succeed step empty (program E (filter other H)) ->
    all_succeed step empty (program E H) /\
    exists w, calls step empty (program E H) = put (calls step empty (program E (filter other H))) w /\ good w (flat_map wanted given).
  Proof.
    intros H. induction H as [|[bo op] H IH] using rev_ind; intros given F A.
    - inversion F; subst. split; [exact A|]. exists []. split; [exact start|exact good_nil].
    - apply PfLists.Forall2_snoc in F. destruct F as [given' [x [-> [F P]]]]. rewrite flat_map_app. cbn [flat_map]. rewrite app_nil_r.
      rewrite filter_app in A |- *. cbn [filter] in A |- *. unfold other at 2 in A. unfold other at 2. cbn [snd] in A |- *.
      destruct (mine op) eqn:M; cbn [negb] in A |- *.
      + rewrite app_nil_r in A |- *. destruct (IH given' F A) as [S [w [Q1 G]]].
        destruct (adds bo op x (calls step empty (program E (filter other H))) w _ P M G) as [w' [Q2 G']].
        rewrite PfLists.program_snoc. split.
        * apply succeed_snoc; [exact S|]. rewrite Q1, Q2. reflexivity.
        * exists w'. rewrite calls_snoc, Q1, Q2. auto.
      + rewrite PfLists.program_snoc in A |- *.
        assert (A' : all_succeed step empty (program E (filter other H)) /\
          snd (step (pure_world (with_be E bo)) (calls step empty (program E (filter other H))) op) = Ok tt).
        { revert A. clear. unfold all_succeed. generalize (program E (filter other H)) as l. generalize empty as q.
          intros q l. revert q. induction l as [|[W' op'] l IH]; intros q A; cbn in A |- *; [tauto|]. destruct (step W' q op') as [q' y]. cbn [fst snd] in *.
          destruct A as [A1 A2]. destruct (IH q' A2). tauto. }
        destruct A' as [A1 A2]. destruct (IH given' F A1) as [S [w [Q1 G]]]. rewrite PfLists.program_snoc, !calls_snoc. split.
        * apply succeed_snoc; [exact S|]. rewrite Q1, apart by exact M. exact A2.
        * exists w. rewrite Q1, apart by exact M. split; [reflexivity|]. rewrite (quiet bo op x P M), app_nil_r. exact G.
  Qed.
  Lemma others_asked : forall (Y : Type) (part : X -> Y) (R' : backend * Op -> Y -> Prop) H given,
    (forall c x, R c x -> mine (snd c) = false -> R' c (part x)) ->
    Forall2 R H given -> exists given0, Forall2 R' (filter other H) given0 /\
      forall (Z : Type) (f : Y -> list Z), (forall c x, R c x -> mine (snd c) = true -> f (part x) = []) -> flat_map f given0 = flat_map (fun x => f (part x)) given.
  Proof.
    intros Y part R' H given K F. induction F as [|c x H given P F [g0 [F0 G0]]]; [exists []; split; [constructor|reflexivity]|].
    cbn [filter]. unfold other at 1. destruct (mine (snd c)) eqn:M; cbn [negb].
    - exists g0. split; [exact F0|]. intros Z f N. cbn [flat_map]. rewrite (N c x P M). exact (G0 Z f N).
    - exists (part x :: g0). split; [constructor; [now apply K|exact F0]|]. intros Z f N. cbn [flat_map]. f_equal. exact (G0 Z f N).
  Qed.
End Apart.

Section Objects.
  Context (b : backend) (E : env).
  Definition holding (w : list val) (ts : list where_item) : Prop :=
    Forall (qcond b) w /\ (w = [] -> ts = []) /\ forall sv at_, chosen b sv at_ w = items_hold b sv at_ ts.
  Lemma holding_nil : holding [] [].
  Proof. split; [constructor|]. split; reflexivity. Qed.
  Lemma holding_adds : forall a k w ts us, where_asks E b a k us -> holding w ts ->
    exists w', conds_where (pure_world (with_be E b)) KWhere w a k = (w', Ok tt) /\ holding w' (ts ++ us).
  Proof.
    intros a k w ts us I [F [N S]]. destruct (items_effect_at b E a k us w I F) as [w' [A [B [C D]]]]. exists w'. split; [exact A|]. split; [exact B|]. split.
    - intros X. destruct (C X) as [-> Y]. rewrite (N Y). reflexivity.
    - intros sv at_. rewrite D, S. unfold items_hold. now rewrite forallb_app.
  Qed.
  Lemma holding_ok : forall w ts, holding w ts -> Forall (cond_ok b) w.
  Proof. intros w ts [F _]. eapply Forall_impl; [|exact F]. apply qcond_ok. Qed.

  (** ** SELECT *)
  Definition sel_where (op : selop) : bool := match op with SWhere _ _ => true | _ => false end.
  Let sel_of := fun (bo : backend * selop) g => select_with E b (fst bo) (snd bo) g.
  Lemma sel_apart : forall W q w op, sel_where op = false -> sel_step W (with_where q w) op = (with_where (fst (sel_step W q op)) w, snd (sel_step W q op)).
  Proof.
    intros W [so cols tabs wh gr hv od li ou fu] w op N. destruct op; try discriminate N;
      cbn [sel_step with_where s_opts s_cols s_tabs s_where s_group s_having s_order s_limit s_out s_forupd]; unfold lift1;
      try match goal with |- context [let (_, _) := ?x in _] => destruct x end; reflexivity.
  Qed.
  Lemma select_objects_inv : forall H given srcs, Forall2 sel_of H given ->
    let cols := flat_map (fun g => as_columns (fst g)) given in let order := flat_map (fun g => as_order (fst g)) given in
    tables_asked (flat_map (fun g => as_from (fst g)) given) = Some srcs -> NoDup (flat_map names_of srcs) ->
    let h := program E H in
    let q := calls sel_step empty_select h in
    all_succeed sel_step empty_select h /\ (s_group q = [] /\ s_having q = [] /\ o_file (s_out q) = None) /\
    Forall2 (table_state b) srcs (s_tabs q) /\ Forall (cond_ok b) (s_where q) /\
    (forall sv at_, chosen b sv at_ (s_where q) = items_hold b sv at_ (flat_map snd given)) /\
    Forall (plain_column b) cols /\ first_occurrences cols (s_cols q) /\
    Forall (fun p => exists c, fst p = VStr c /\ good_name (quote_of b) c) order /\ SpecLists.ordered_list (supper E) order (s_order q).
  Proof.
    intros H given srcs F cols order TA ND h q.
    destruct (others_asked selop (asks * list where_item) sel_where sel_of asks fst (fun c g => option_call b (supper E) (fst c) (snd c) g) H given) as [g1 [F1 G1]]; [|exact F|].
    { intros [bo op] x P M. unfold sel_of in P. cbn [fst snd] in *. destruct P; [exact H0|discriminate M]. }
    assert (NW : forall (Z : Type) (f : asks -> list Z), f nothing = [] -> forall c x, sel_of c x -> sel_where (snd c) = true -> f (fst x) = []).
    { intros Z f N [bo op] x P M. unfold sel_of in P. cbn [fst snd] in *. destruct P; [|exact N]. exfalso. destruct op; try discriminate M. now apply (H1 args kwds). }
    destruct (split_calls b E _ _ F1) as [g0 [F0 [Ec [Ef [_ Eo]]]]].
    rewrite (G1 _ as_columns (NW _ as_columns eq_refl)) in Ec. rewrite (G1 _ as_from (NW _ as_from eq_refl)) in Ef. rewrite (G1 _ as_order (NW _ as_order eq_refl)) in Eo.
    fold cols in Ec. fold order in Eo. rewrite <- Ef in TA.
    set (H1 := filter (fun c => negb (sel_where (snd c))) H) in *. set (H0 := filter (fun c => no_opt (snd c)) H1) in *.
    destruct (join_inv b E H0 g0 srcs F0 TA ND) as [A0 [[N1 [N2 [N3 N4]]] [T [W [S [[C1 C2] [O1 O2]]]]]]].
    unfold H0 in A0. rewrite program_filter in A0. destruct (options_succeed _ A0) as [A1 [opt0 QO]]. rewrite <- program_filter in QO. fold H0 in QO.
    destruct (apart_calls E _ _ _ sel_step empty_select with_where sel_where sel_apart eq_refl sel_of snd holding holding_nil) with (H := H) (given := given) as [A [w [QW HW]]]; auto.
    { intros bo op x P M. unfold sel_of in P. cbn [fst snd] in *. destruct P; [reflexivity|discriminate M]. }
    { intros bo op x q1 w ts P M HO. unfold sel_of in P. cbn [fst snd] in *. destruct P as [op g P1 P2|a k us -> P1].
      - exfalso. destruct op; try discriminate M. now apply (P2 args kwds).
      - destruct (holding_adds a k w ts us P1 HO) as [w' [Q1 Q2]]. exists w'. split; [|exact Q2]. destruct q1 as [x1 x2 x3 x4 x5 x6 x7 x8 x9 x10]. cbn [sel_step lift1 with_where s_where]. rewrite Q1. reflexivity. }
    fold h in A, QW. fold q in QW. split; [exact A|]. fold H1 in QW. rewrite QO in QW. set (q0 := calls sel_step empty_select (program E H0)) in *.
    destruct (given_plain b E H0 g0 F0) as [PC PO]. rewrite Ec in PC, C2. rewrite Eo in PO, O2.
    rewrite QW. split; [split; [exact N2|split; [exact N3|exact N4]]|]. split; [exact T|]. split; [exact (holding_ok w _ HW)|].
    split; [intros sv at_; apply HW|]. split; [exact PC|]. split; [exact C2|]. split; [exact PO|exact O2].
  Qed.
  Lemma select_objects_program : forall H given srcs, Forall2 sel_of H given ->
    let cols := flat_map (fun g => as_columns (fst g)) given in let order := flat_map (fun g => as_order (fst g)) given in
    tables_asked (flat_map (fun g => as_from (fst g)) given) = Some srcs -> NoDup (flat_map names_of srcs) ->
    bounded (wanted_limit (map snd H)) -> bounded (wanted_offset (map snd H)) ->
    (forall c a k v, In (c, VStr a) cols -> In (VStr k, v) order -> name_segments a <> name_segments k) ->
    (distinct_asked (map snd H) = true -> forall k v, In (k, v) order ->
       exists c a, In (c, a) (columns_asked cols) /\ (segments c = segments k \/ segments c = [lit "*"])) ->
    let h := program E H in
    let q := calls sel_step empty_select h in
    all_succeed sel_step empty_select h /\
    exists s st cols' order', text (with_be E b) (VSelect q) = Ok s /\ understood (dialect_of b) s = Some st /\
      first_occurrences cols cols' /\ SpecLists.ordered_list (supper E) order order' /\
      forall sv find le db out, mirrored sv -> (option_answers sv find le db st out <->
        rows_asked b sv find le db (distinct_asked (map snd H)) (columns_asked cols') srcs (fun c => items_hold b sv (find c) (flat_map snd given)) order'
          (wanted_limit (map snd H)) (wanted_offset (map snd H)) out).
  Proof.
    intros H given srcs F cols order TA ND BL BO NA SD h q.
    destruct (select_objects_inv H given srcs F TA ND) as [A [[N2 [N3 N4]] [T [W [S [PC [C2 [PO O2]]]]]]]]. fold h in A, N2, N3, N4, T, W, S, C2, O2. fold q in N2, N3, N4, T, W, S, C2, O2.
    split; [exact A|].
    apply (option_said b E q cols order srcs (fun sv at_ => items_hold b sv at_ (flat_map snd given))); auto.
    - unfold q. rewrite limit_state. unfold h, program. rewrite map_map. reflexivity.
    - unfold q. rewrite !options_inv. unfold h, program. rewrite map_map. reflexivity.
  Qed.

  (** ** DELETE *)
  Definition del_where (op : delop) : bool := match op with DWhere _ _ => true | _ => false end.
  Definition put_del (q : delq val) (w : list val) : delq val := MkDel (d_ignore q) (d_tabs q) (d_refs q) w (d_allow q).
  Let del_of := fun (bo : backend * delop) g => delete_with E b (fst bo) (snd bo) g.
  Lemma del_apart : forall W q w op, del_where op = false -> del_step W (put_del q w) op = (put_del (fst (del_step W q op)) w, snd (del_step W q op)).
  Proof.
    intros W [ig tabs refs wh al] w op N. destruct op; try discriminate N; cbn [del_step put_del d_ignore d_tabs d_refs d_where d_allow]; unfold lift1;
      try match goal with |- context [let (_, _) := ?x in _] => destruct x end; reflexivity.
  Qed.
  Lemma delete_objects_program : forall H given srcs, Forall2 del_of H given ->
    tables_asked (flat_map (fun g => ad_from (fst g)) given) = Some srcs -> NoDup (flat_map names_of srcs) -> srcs <> [] ->
    let targets := map (fun p => segments (fst p)) (flat_map (fun g => ad_targets (fst g)) given) in
    targets <> [] -> (forall p, In p targets -> In p (flat_map names_of srcs)) ->
    flat_map snd given <> [] \/ delete_confirmed (map snd H) ->
    let h := program E H in
    let q := calls del_step empty_delete h in
    all_succeed del_step empty_delete h /\
    exists s st, text (with_be E b) (VDelete q) = Ok s /\ understood (dialect_of b) s = Some st /\
      forall sv find db, mirrored sv -> exists db', multi_delete sv find st db = Some db' /\
        forall t, db' t = map snd (filter (fun x => negb (removed (map (tree_asked b sv find) srcs) (rows_with b sv find db srcs (flat_map snd given)) targets t (fst x))) (indexed (db t))).
  Proof.
    intros H given srcs F TA ND NE targets NT KN C h q.
    destruct (others_asked delop (asks_delete * list where_item) del_where del_of asks_delete fst (fun c g => delete_join_call b (snd c) g) H given) as [g0 [F0 G0]]; [|exact F|].
    { intros [bo op] x P M. unfold del_of in P. cbn [fst snd] in *. destruct P; [exact H0|discriminate M]. }
    assert (NW : forall (Z : Type) (f : asks_delete -> list Z), f (MkAD [] [] []) = [] -> forall c x, del_of c x -> del_where (snd c) = true -> f (fst x) = []).
    { intros Z f N [bo op] x P M. unfold del_of in P. cbn [fst snd] in *. destruct P; [|exact N]. exfalso. destruct op; try discriminate M. now apply (H1 args kwds). }
    pose proof (G0 _ ad_from (NW _ ad_from eq_refl)) as Ef. pose proof (G0 _ ad_targets (NW _ ad_targets eq_refl)) as Et. rewrite <- Ef in TA.
    set (H0 := filter (fun c => negb (del_where (snd c))) H) in *.
    destruct (delete_join_inv b E H0 g0 srcs F0 TA ND) as [A0 [TG [T [_ _]]]].
    destruct (apart_calls E _ _ _ del_step empty_delete put_del del_where del_apart eq_refl del_of snd holding holding_nil) with (H := H) (given := given) as [A [w [QW HW]]]; auto.
    { intros bo op x P M. unfold del_of in P. cbn [fst snd] in *. destruct P; [reflexivity|discriminate M]. }
    { intros bo op x q1 w ts P M HO. unfold del_of in P. cbn [fst snd] in *. destruct P as [op g P1 P2|a k us -> P1].
      - exfalso. destruct op; try discriminate M. now apply (P2 args kwds).
      - destruct (holding_adds a k w ts us P1 HO) as [w' [Q1 Q2]]. exists w'. split; [|exact Q2]. destruct q1 as [x1 x2 x3 x4 x5]. cbn [del_step lift1 put_del d_ignore d_tabs d_refs d_where d_allow]. rewrite Q1. reflexivity. }
    fold h in A, QW. fold q in QW. split; [exact A|]. fold H0 in QW.
    apply (delete_said b E q (flat_map (fun g => ad_targets (fst g)) given) srcs (fun sv at_ => items_hold b sv at_ (flat_map snd given))); auto.
    - rewrite QW, <- Et. exact TG.
    - rewrite <- Et. clear -F0. induction F0 as [|[bo op] g H0 gs P F0 IH]; [constructor|]. cbn [flat_map]. apply Forall_app. split; [|exact IH]. cbn [snd] in P.
      destruct P; cbn [ad_targets]; try constructor. assumption.
    - rewrite QW. exact T.
    - rewrite QW. exact (holding_ok w _ HW).
    - intros sv at_ _. rewrite QW. apply HW.
    - destruct C as [C|C].
      + left. rewrite QW. cbn [put_del d_where]. intros X. apply C. apply HW. exact X.
      + right. apply del_allow_inv. unfold h, program. rewrite map_map. exact C.
  Qed.

  (** ** UPDATE *)
  Definition upd_where (op : updop) : bool := match op with UWhere _ _ => true | _ => false end.
  Definition put_upd (q : updq val) (w : list val) : updq val := MkUpd (u_ignore q) (u_tabs q) (u_vals q) w (u_allow q).
  Let upd_of := fun (bo : backend * updop) g => update_with E b (fst bo) (snd bo) g.
  Lemma upd_apart : forall W q w op, upd_where op = false -> upd_step W (put_upd q w) op = (put_upd (fst (upd_step W q op)) w, snd (upd_step W q op)).
  Proof.
    intros W [ig tabs vals wh al] w op N. destruct op; try discriminate N; cbn [upd_step put_upd u_ignore u_tabs u_vals u_where u_allow]; unfold lift1;
      try match goal with |- context [let (_, _) := ?x in _] => destruct x end; reflexivity.
  Qed.
  Lemma update_objects_program : forall H given srcs, Forall2 upd_of H given ->
    tables_asked (flat_map (fun g => au_from (fst g)) given) = Some srcs -> NoDup (flat_map names_of srcs) -> srcs <> [] ->
    let sets := flat_map (fun g => au_sets (fst g)) given in let conds := flat_map snd given in
    sets <> [] -> conds <> [] \/ update_confirmed (map snd H) ->
    let h := program E H in
    let q := calls upd_step empty_update h in
    all_succeed upd_step empty_update h /\
    exists s st, text (with_be E b) (VUpdate q) = Ok s /\ understood (dialect_of b) s = Some st /\
      forall sv find own db, mirrored sv -> (forall n, none_returns (for_table own n (stores b sets))) ->
        exists db', multi_update sv find own st db = Some db' /\
        forall t, Forall2 (fun x new => forall c, new c =
            match last_for c (row_assigned own (asked_names b sv find srcs) (rows_with b sv find db srcs conds) (stores b sets) t (fst x)) with
            | Some l => l | None => snd x c end) (indexed (db t)) (db' t).
  Proof.
    intros H given srcs F TA ND NE sets conds NS C h q.
    destruct (others_asked updop (asks_update * list where_item) upd_where upd_of asks_update fst (fun c g => update_join_call b (snd c) g) H given) as [g0 [F0 G0]]; [|exact F|].
    { intros [bo op] x P M. unfold upd_of in P. cbn [fst snd] in *. destruct P; [exact H0|discriminate M]. }
    assert (NW : forall (Z : Type) (f : asks_update -> list Z), f (MkAU [] [] []) = [] -> forall c x, upd_of c x -> upd_where (snd c) = true -> f (fst x) = []).
    { intros Z f N [bo op] x P M. unfold upd_of in P. cbn [fst snd] in *. destruct P; [|exact N]. exfalso. destruct op; try discriminate M. now apply (H1 args kwds). }
    pose proof (G0 _ au_from (NW _ au_from eq_refl)) as Ef. pose proof (G0 _ au_sets (NW _ au_sets eq_refl)) as Es. rewrite <- Ef in TA. fold sets in Es.
    set (H0 := filter (fun c => negb (upd_where (snd c))) H) in *.
    destruct (update_join_inv b E H0 g0 srcs F0 TA ND) as [A0 [T [_ [_ [_ [out [V [FO DO]]]]]]]]. rewrite Es in DO.
    destruct (apart_calls E _ _ _ upd_step empty_update put_upd upd_where upd_apart eq_refl upd_of snd holding holding_nil) with (H := H) (given := given) as [A [w [QW HW]]]; auto.
    { intros bo op x P M. unfold upd_of in P. cbn [fst snd] in *. destruct P; [reflexivity|discriminate M]. }
    { intros bo op x q1 w ts P M HO. unfold upd_of in P. cbn [fst snd] in *. destruct P as [op g P1 P2|a k us -> P1].
      - exfalso. destruct op; try discriminate M. now apply (P2 args kwds).
      - destruct (holding_adds a k w ts us P1 HO) as [w' [Q1 Q2]]. exists w'. split; [|exact Q2]. destruct q1 as [x1 x2 x3 x4 x5]. cbn [upd_step lift1 put_upd u_ignore u_tabs u_vals u_where u_allow]. rewrite Q1. reflexivity. }
    fold h in A, QW. fold q in QW. split; [exact A|]. fold H0 in QW.
    apply (update_said b E q out sets srcs (fun sv at_ => items_hold b sv at_ conds)); auto.
    - rewrite QW. exact T.
    - rewrite QW. exact V.
    - rewrite <- Es. clear -F0. induction F0 as [|[bo op] g H0 gs P F0 IH]; [constructor|]. cbn [flat_map]. apply Forall_app. split; [|exact IH]. cbn [snd] in P.
      destruct P; cbn [au_sets]; try constructor. assumption.
    - rewrite QW. exact (holding_ok w _ HW).
    - intros sv at_ _. rewrite QW. apply HW.
    - destruct C as [C|C].
      + left. rewrite QW. cbn [put_upd u_where]. intros X. apply C. apply HW. exact X.
      + right. apply upd_allow_inv. unfold h, program. rewrite map_map. exact C.
  Qed.
End Objects.
