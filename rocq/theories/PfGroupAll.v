(** Proofs about select programs with groups, options and conditions made by Q, Not, & and |: C94. *)
From Coq Require Import Lia Permutation Sorted.
From Verif Require Import Base BaseFacts NumFmt Value Backend Eq Render RenderFacts ParseArgs Build Queries History
  SpecLex SpecRef SpecLogic SpecConds SpecHistory SpecArgs SpecErrors SpecWhole SpecSql SpecServer SpecProgram SpecProgramQ SpecJoin SpecGroup SpecDistinct SpecGroupAll
  PfArgs PfErrors PfAccept PfHistories PfDedupe PfLiterals PfSqlExec PfServer PfProgram PfJoin PfProgramQ PfDistinct PfObjects PfGroup.
Open Scope N_scope.

Section Grouped.
  Context (b : backend) (E : env).
  Let call_of := fun (bo : backend * selop) g => grouped_call E b (fst bo) (snd bo) g.
  Definition plain_op (op : selop) : bool := no_opt op && negb (sel_where op).
  Lemma plain_calls : forall H given, Forall2 call_of H given ->
    exists given0, Forall2 (fun bo g => group_call b (supper E) (fst bo) (snd bo) g) (filter (fun c => no_opt (snd c)) (filter (fun c => negb (sel_where (snd c))) H)) given0 /\
      forall (Z : Type) (f : asks_groups -> list Z), f (MkGroups nothing [] []) = [] -> flat_map f given0 = flat_map (fun x => f (fst x)) given.
  Proof.
    intros H given F. induction F as [|[bo op] g H given P F [g0 [F0 G0]]]; [exists []; split; [constructor|reflexivity]|].
    unfold call_of in P. cbn [fst snd] in P. destruct P as [op g P N|k v|a k ts _ _].
    - exists (g :: g0). split.
      + cbn [filter snd]. replace (negb (sel_where op)) with true by (destruct op; try reflexivity; exfalso; now apply (N args kwds)).
        cbn [filter snd]. replace (no_opt op) with true by (destruct P as [op g P _ _|? ? ? _ _ _|? ? ? _ _ _|? ? ? _ _ _|? ? ? _ _ _]; try reflexivity; destruct P; reflexivity).
        constructor; [exact P|exact F0].
      + intros Z f N0. cbn [flat_map fst]. now rewrite (G0 Z f N0).
    - exists g0. cbn [filter snd sel_where negb no_opt]. split; [exact F0|]. intros Z f N0. cbn [flat_map fst]. rewrite N0. exact (G0 Z f N0).
    - exists g0. cbn [filter snd sel_where negb]. split; [exact F0|]. intros Z f N0. cbn [flat_map fst]. rewrite N0. exact (G0 Z f N0).
  Qed.
  Lemma grouped_program : forall H given srcs, Forall2 call_of H given ->
    let cols := flat_map (fun g => as_columns (ag_join (fst g))) given in let order := flat_map (fun g => as_order (ag_join (fst g))) given in
    let group := flat_map (fun g => ag_group (fst g)) given in let having := flat_map (fun g => ag_having (fst g)) given in
    tables_asked (flat_map (fun g => as_from (ag_join (fst g))) given) = Some srcs -> NoDup (flat_map names_of srcs) ->
    bounded (wanted_limit (map snd H)) -> bounded (wanted_offset (map snd H)) ->
    (forall c a k v, In (c, VStr a) cols -> In (VStr k, v) group -> name_segments a <> name_segments k) ->
    (distinct_asked (map snd H) = true -> forall k v, In (k, v) order -> exists c a, In (c, a) (columns_asked cols) /\ (c = k \/ a = k)) ->
    let h := program E H in
    let q := calls sel_step empty_select h in
    all_succeed sel_step empty_select h /\
    exists s st cols' order', text (with_be E b) (VSelect q) = Ok s /\ understood (dialect_of b) s = Some st /\
      first_occurrences cols cols' /\ SpecLists.ordered_list (supper E) order order' /\
      forall sv find le same total by_alias db out, mirrored sv -> (grouped_answers sv find le same total by_alias db st out <->
        groups_asked b sv find le same total by_alias db (distinct_asked (map snd H)) (columns_asked cols') srcs
          (fun c => items_hold b sv (find c) (flat_map snd given)) group having order' (wanted_limit (map snd H)) (wanted_offset (map snd H)) out).
  Proof.
    intros H given srcs F cols order group having TA ND BL BO NA SD h q.
    destruct (plain_calls H given F) as [g0 [F0 G0]].
    pose proof (G0 _ (fun g => as_columns (ag_join g)) eq_refl) as Ec. pose proof (G0 _ (fun g => as_from (ag_join g)) eq_refl) as Ef.
    pose proof (G0 _ (fun g => as_order (ag_join g)) eq_refl) as Eo. pose proof (G0 _ ag_group eq_refl) as Eg. pose proof (G0 _ ag_having eq_refl) as Eh.
    cbn beta in Ec, Ef, Eo. fold cols in Ec. fold order in Eo. fold group in Eg. fold having in Eh. rewrite <- Ef in TA.
    set (H1 := filter (fun c => negb (sel_where (snd c))) H) in *. set (H0 := filter (fun c => no_opt (snd c)) H1) in *.
    destruct (group_inv b E H0 g0 srcs F0 TA ND) as [A0 [[N1 N2] [T [_ [[C1 C2] [[O1 O2] [[G1 G2] [Ha Hs]]]]]]]].
    unfold all_columns in C2. unfold all_order in O2. rewrite Ec in C2. rewrite Eo in O2. rewrite Eg in G2.
    unfold H0 in A0. rewrite program_filter in A0. destruct (options_succeed _ A0) as [A1 [opt0 QO]]. rewrite <- program_filter in QO. fold H0 in QO.
    destruct (apart_calls E _ _ _ sel_step empty_select with_where sel_where sel_apart eq_refl call_of snd (holding b) (holding_nil b)) with (H := H) (given := given) as [A [w [QW HW]]]; auto.
    { intros bo op x P M. unfold call_of in P. cbn [fst snd] in *. destruct P; [reflexivity|reflexivity|discriminate M]. }
    { intros bo op x q1 w ts P M HO. unfold call_of in P. cbn [fst snd] in *. destruct P as [op g P1 P2|k v|a k us -> P1].
      - exfalso. destruct op; try discriminate M. now apply (P2 args kwds).
      - discriminate M.
      - destruct (holding_adds b E a k w ts us P1 HO) as [w' [Q1 Q2]]. exists w'. split; [|exact Q2].
        destruct q1 as [x1 x2 x3 x4 x5 x6 x7 x8 x9 x10]. cbn [sel_step lift1 with_where s_where]. rewrite Q1. reflexivity. }
    fold h in A, QW. fold q in QW. split; [exact A|]. fold H1 in QW. rewrite QO in QW. set (q0 := calls sel_step empty_select (program E H0)) in *.
    destruct (given_items b E H0 g0 F0) as [PG PH]. rewrite Eg in PG. rewrite Eh in PH.
    destruct (grouped_said b E q cols order group having srcs
      (fun sv at_ => items_hold b sv at_ (flat_map snd given)) (distinct_asked (map snd H)) (wanted_limit (map snd H)) (wanted_offset (map snd H)))
      as [s [st [cols' [order' [X1 [X2 [X3 [X4 [_ X6]]]]]]]]]; auto; try (rewrite QW; assumption).
    - rewrite QW. exact (holding_ok b w _ HW).
    - intros sv at_ _. rewrite QW. apply HW.
    - intros sv value. rewrite QW, <- Eh. apply Hs.
    - unfold q. rewrite limit_state. unfold h, program. rewrite map_map. reflexivity.
    - unfold q. rewrite !options_inv. unfold h, program. rewrite map_map. reflexivity.
    - exists s, st, cols', order'. auto.
  Qed.
End Grouped.
