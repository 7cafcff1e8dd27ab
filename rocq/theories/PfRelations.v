(** C12-C15: relations. *)
From Verif Require Import Base BaseFacts NumFmt Value Backend Eq Render RenderFacts ParseArgs Build
  SpecLogic SpecRelations BoolFacts PfLiterals.
Open Scope N_scope.

(** where(c, r) with a column name and a relation or value: one condition. *)
Lemma where_pair : forall W k ps c v, conds_where W k ps [VStr c; v] [] =
  foldE (fun s it => let (c, v) := nth2 it in
           commit s (do x <- mk_condition k c v; append_unique (w_eq W) s x)) ps [[VStr c; v]].
Proof. intros. reflexivity. Qed.
Lemma where_new : forall W k c v x, mk_condition k (VStr c) v = Ok x ->
  conds_where W k [] [VStr c; v] [] = ([x], Ok tt).
Proof. intros W k c v x H. rewrite where_pair. cbn [foldE nth2]. rewrite H. reflexivity. Qed.

Lemma mk_in_seq : forall k sk l, k = RIn \/ k = RNotIn ->
  mk_in k [VSeq sk l] = Ok (VRel k (VSeq KList l)).
Proof. intros k sk l [->| ->]; reflexivity. Qed.
Lemma cond_rel : forall k c r v, mk_condition k (VStr c) (VRel r v) = Ok (VCond k (VStr c) r v).
Proof. reflexivity. Qed.

Section In.
  Context {X : Type} (eqX : X -> X -> bool) (eqX_ok : forall x y, eqX x y = true <-> x = y).
  Lemma in3_cons : forall x a l, in3 eqX x (a :: l) = or3 (eq3 eqX x a) (in3 eqX x l).
  Proof. reflexivity. Qed.
  Lemma or3_true : forall a b, or3 a b = Some true <-> a = Some true \/ b = Some true.
  Proof. intros [[]|] [[]|]; simpl; intuition congruence. Qed.
  Lemma or3_false : forall a b, or3 a b = Some false <-> a = Some false /\ b = Some false.
  Proof. intros [[]|] [[]|]; simpl; intuition congruence. Qed.
  Lemma eq3_true : forall x a, eq3 eqX x a = Some true <-> exists y, x = Some y /\ a = Some y.
  Proof.
    intros [x|] [a|]; simpl; split; try discriminate; try (intros [y [H1 H2]]; discriminate).
    - intros H. injection H as H. apply eqX_ok in H. subst. eauto.
    - intros [y [H1 H2]]. injection H1 as ->. injection H2 as ->. now rewrite (proj2 (eqX_ok y y) eq_refl).
  Qed.
  Lemma eq3_false : forall x a, eq3 eqX x a = Some false <-> exists y z, x = Some y /\ a = Some z /\ y <> z.
  Proof.
    intros [x|] [a|]; simpl; split; try discriminate; try (intros [y [z [H1 [H2 H3]]]]; discriminate).
    - intros H. injection H as H. exists x, a. repeat split; auto. intros ->.
      rewrite (proj2 (eqX_ok a a) eq_refl) in H. discriminate.
    - intros [y [z [H1 [H2 H3]]]]. injection H1 as ->. injection H2 as ->. destruct (eqX y z) eqn:Q; [|reflexivity].
      apply eqX_ok in Q. contradiction.
  Qed.
  Lemma in3_true : forall x l, in3 eqX x l = Some true <-> exists y, x = Some y /\ In (Some y) l.
  Proof.
    intros x l. induction l as [|a l IH].
    - split; [discriminate|]. intros [y [_ []]].
    - rewrite in3_cons, or3_true, IH, eq3_true. simpl. split.
      + intros [[y [H1 H2]]|[y [H1 H2]]]; eauto.
      + intros [y [H1 [H2|H2]]]; eauto.
  Qed.
  Lemma in3_false : forall x l, in3 eqX x l = Some false <-> l = [] \/ (exists y, x = Some y /\ ~ In (Some y) l /\ ~ In None l).
  Proof.
    intros x l. induction l as [|a l IH].
    - split; [auto|reflexivity].
    - rewrite in3_cons, or3_false, IH, eq3_false. simpl. split.
      + intros [[y [z [-> [-> N]]]] H]. right. exists y. split; [reflexivity|].
        destruct H as [->|[w [Hw [H1 H2]]]].
        * simpl. split; intros [H|[]]; congruence.
        * injection Hw as <-. split; intros [H|H]; try congruence; auto.
      + intros [H|[y [-> [H1 H2]]]]; [discriminate|]. destruct a as [a|]; [|exfalso; auto]. split.
        * exists y, a. repeat split; auto. intros ->; apply H1; auto.
        * right. exists y. intuition.
  Qed.
End In.

(** Literals of the non-None elements. *)
Definition lit_of (E : env) (v : val) : str := match text E (VSqlV v) with Ok s => s | Err _ => [] end.
Lemma lits_mapM : forall E l, (forall v, In v l -> exists t, text E (VSqlV v) = Ok t) ->
  mapM (sqlvalue E (text E)) l = Ok (map (lit_of E) l).
Proof.
  intros E l. induction l as [|v l IH]; intros H; [reflexivity|]. simpl.
  destruct (H v (or_introl eq_refl)) as [t Ht]. unfold lit_of at 1. rewrite Ht.
  rewrite text_V in Ht. rewrite Ht. rewrite IH; [reflexivity|]. intros w Hw. apply H. now right.
Qed.
Lemma seq_text : forall E l, l <> [] -> (forall v, In v l -> exists t, text E (VSqlV v) = Ok t) ->
  sqlvalue E (text E) (VSeq KList l) = Ok (lit "(" ++ sjoin (lit ", ") (map (lit_of E) l) ++ lit ")").
Proof.
  intros E l N H. change (sqlvalue E (text E) (VSeq KList l)) with
    (if truthy (VSeq KList l) then do ts <- mapM (sqlvalue E (text E)) l; Ok (paren (sjoin (lit ", ") ts)) else Err EInvalidArgument).
  rewrite (lits_mapM E l H). destruct l; [congruence|]. reflexivity.
Qed.
Lemma is_none_iff : forall v, is_none v = true <-> v = VNone.
Proof. destruct v; simpl; split; congruence. Qed.
Lemma existsb_none : forall l, existsb is_none l = true <-> In VNone l.
Proof.
  intros l. rewrite existsb_exists. split.
  - intros [x [H1 H2]]. apply is_none_iff in H2. now subst.
  - intros H. exists VNone. auto.
Qed.
Definition some_vals (l : list val) := filter (fun x => negb (is_none x)) l.
Lemma in_some_vals : forall v l, In v (some_vals l) <-> In v l /\ v <> VNone.
Proof.
  intros v l. unfold some_vals. rewrite filter_In. rewrite negb_true_iff.
  pose proof (is_none_iff v). destruct (is_none v); intuition congruence.
Qed.

Section WhereIn.
  Context {X : Type} (eqX : X -> X -> bool) (eqX_ok : forall x y, eqX x y = true <-> x = y).
  Context (E : env) (m : str -> option X) (c : str) (l : list val).
  Context (Hne : l <> []) (Hlit : forall v, In v l -> v <> VNone -> exists t, text E (VSqlV v) = Ok t).
  Let col := Backend.reference (e_be E) c.

  Lemma cond_text : forall k x, text E (VCond KWhere (VStr c) k x) =
    fmt_condition (Ok col) k (sqlvalue E (text E)) x.
  Proof. intros. rewrite text_unfold. cbn [str_body]. destruct x; reflexivity. Qed.
  Lemma col_text : text E (VSqlR (VStr c)) = Ok col.
  Proof. now rewrite text_R. Qed.

  Definition in_form (k : relk) : cond1 :=
    let ts := map (lit_of E) (some_vals l) in
    match k with
    | RIn => if existsb is_none l then if is_nilb (some_vals l) then CIsNull else CEither (CIn ts) CIsNull else CIn ts
    | _ => if existsb is_none l then if is_nilb (some_vals l) then CIsNotNull else CBoth (CNotIn ts) CIsNotNull else CNotIn ts
    end.
  Lemma some_nil : existsb is_none l = false -> some_vals l <> [].
  Proof.
    intros H N. destruct l as [|v r]; [congruence|].
    assert (K : In v (some_vals (v :: r))).
    { apply in_some_vals. split; [now left|]. intros ->. simpl in H. discriminate. }
    rewrite N in K. destruct K.
  Qed.
  Lemma in_text : forall k, k = RIn \/ k = RNotIn ->
    text E (VCond KWhere (VStr c) k (VSeq KList l)) = Ok (written col (in_form k)).
  Proof.
    intros k Hk. rewrite cond_text.
    assert (S : some_vals l <> [] -> sqlvalue E (text E) (VSeq KList (some_vals l)) =
      Ok (lit "(" ++ sjoin (lit ", ") (map (lit_of E) (some_vals l)) ++ lit ")")).
    { intros N. apply seq_text; [exact N|]. intros v Hv. apply in_some_vals in Hv. destruct Hv. auto. }
    unfold fmt_condition, fmt_in, in_form. fold (some_vals l).
    destruct (existsb is_none l) eqn:Q.
    - destruct (some_vals l) as [|y ys] eqn:Q2.
      + destruct Hk as [->| ->]; reflexivity.
      + rewrite S by discriminate. cbn [is_nilb bind written app].
        destruct Hk as [->| ->]; cbn [is_nilb bind written app]; f_equal; repeat (rewrite <- app_assoc; cbn [app]); reflexivity.
    - rewrite S by (now apply some_nil).
      destruct Hk as [->| ->]; unfold fmt_plain; cbn [bind written rel_str]; f_equal;
        repeat (rewrite <- app_assoc; cbn [app]); reflexivity.
  Qed.

  Lemma truth_in : forall cell, selects (truth1 eqX m cell (in_form RIn)) <->
    exists v, In v l /\ matches (lit_of E) m v cell.
  Proof.
    intros cell. unfold selects, in_form.
    assert (A : in3 eqX cell (map m (map (lit_of E) (some_vals l))) = Some true <->
                exists v, In v l /\ v <> VNone /\ exists x, cell = Some x /\ m (lit_of E v) = Some x).
    { rewrite in3_true by exact eqX_ok. split.
      - intros [y [-> H]]. apply in_map_iff in H. destruct H as [t [Ht H]].
        apply in_map_iff in H. destruct H as [v [Hv H]]. subst t. apply in_some_vals in H. destruct H.
        exists v. eauto.
      - intros [v [H [N [x [-> Hm]]]]]. exists x. split; [reflexivity|]. apply in_map_iff.
        exists (lit_of E v). split; [exact Hm|]. apply in_map. now apply in_some_vals. }
    assert (B : (exists v, In v l /\ matches (lit_of E) m v cell) <->
                (In VNone l /\ cell = None) \/
                (exists v, In v l /\ v <> VNone /\ exists x, cell = Some x /\ m (lit_of E v) = Some x)).
    { split.
      - intros [v [H M]]. destruct v; try (right; eexists; split; [exact H|]; split; [discriminate|exact M]).
        left. auto.
      - intros [[H ->]|[v [H [N M]]]]; [exists VNone; simpl; auto|]. exists v. split; [exact H|].
        destruct v; try exact M. congruence. }
    rewrite B, <- A. clear A B. pose proof (existsb_none l) as Q.
    destruct (existsb is_none l).
    - assert (In VNone l) by tauto. destruct (some_vals l) as [|y ys].
      + cbn [is_nilb truth1 map in3 fold_right]. unfold is_null. destruct cell; intuition congruence.
      + cbn [is_nilb truth1]. unfold is_null. destruct cell.
        * rewrite or3_false_r. intuition congruence.
        * destruct (in3 eqX None _) as [[]|]; simpl; intuition congruence.
    - cbn [truth1]. intuition congruence.
  Qed.

  Lemma truth_not_in : (forall v, In v l -> v <> VNone -> m (lit_of E v) <> None) ->
    forall cell, selects (truth1 eqX m cell (in_form RNotIn)) <->
    cell <> None /\ ~ exists v, In v l /\ matches (lit_of E) m v cell.
  Proof.
    intros Hm cell. unfold selects, in_form.
    assert (A : some_vals l <> [] -> (not3 (in3 eqX cell (map m (map (lit_of E) (some_vals l)))) = Some true <->
                cell <> None /\ ~ exists v, In v l /\ v <> VNone /\ exists x, cell = Some x /\ m (lit_of E v) = Some x)).
    { intros NE. transitivity (in3 eqX cell (map m (map (lit_of E) (some_vals l))) = Some false).
      { destruct (in3 eqX cell _) as [[]|]; simpl; split; congruence. }
      rewrite in3_false by exact eqX_ok. split.
      - intros [H|[y [-> [H1 H2]]]].
        + destruct (some_vals l); [congruence|discriminate].
        + split; [discriminate|]. intros [v [Hv [N [x [Hx Hmx]]]]]. apply H1. injection Hx as ->.
          rewrite <- Hmx. apply in_map, in_map. now apply in_some_vals.
      - intros [H1 H2]. right. destruct cell as [y|]; [|congruence]. exists y. split; [reflexivity|]. split.
        + intros H. apply in_map_iff in H. destruct H as [t [Ht H]]. apply in_map_iff in H.
          destruct H as [v [Hv H]]. subst t. apply in_some_vals in H. destruct H. apply H2. eauto 6.
        + intros H. apply in_map_iff in H. destruct H as [t [Ht H]]. apply in_map_iff in H.
          destruct H as [v [Hv H]]. subst t. apply in_some_vals in H. destruct H. eapply Hm; eauto. }
    assert (B : cell <> None -> ((exists v, In v l /\ matches (lit_of E) m v cell) <->
                (exists v, In v l /\ v <> VNone /\ exists x, cell = Some x /\ m (lit_of E v) = Some x))).
    { intros NC. split.
      - intros [v [H M]]. exists v. split; [exact H|]. destruct v; try (split; [discriminate|exact M]).
        simpl in M. congruence.
      - intros [v [H [N M]]]. exists v. split; [exact H|]. destruct v; try exact M. congruence. }
    pose proof (existsb_none l) as Q. pose proof some_nil as SN. destruct (existsb is_none l).
    - destruct (some_vals l) as [|y ys] eqn:Q2.
      + cbn [is_nilb truth1]. unfold is_null. destruct cell; simpl; [|intuition congruence].
        split; [|reflexivity]. intros _. split; [discriminate|].
        intros [v [Hv M]]. assert (K : v = VNone).
        { destruct v; try reflexivity; exfalso; match goal with H : In ?w l |- _ =>
            assert (In w (some_vals l)) as K by (apply in_some_vals; split; [exact H|discriminate]); rewrite Q2 in K; destruct K end. }
        subst. simpl in M. discriminate.
      + cbn [is_nilb truth1]. assert (A' := A ltac:(discriminate)). destruct cell.
        * cbn [is_null not3 negb]. rewrite and3_true_r. rewrite A'. rewrite B by discriminate. tauto.
        * cbn [is_null not3 negb]. destruct (not3 (in3 eqX None _)) as [[]|]; simpl; intuition congruence.
    - cbn [truth1]. rewrite (A (SN eq_refl)). split; intros [H1 H2]; split; auto; rewrite B in *; auto.
  Qed.
End WhereIn.

Lemma matches_ext : forall X (f g : val -> str) (m : str -> option X) v cell,
  (v <> VNone -> f v = g v) -> matches f m v cell -> matches g m v cell.
Proof. intros X f g m v cell H M. destruct v; try exact M; simpl in *; rewrite <- H by discriminate; exact M. Qed.
Lemma matches_list : forall X (f g : val -> str) (m : str -> option X) l cell,
  (forall v, In v l -> v <> VNone -> f v = g v) ->
  ((exists v, In v l /\ matches f m v cell) <-> (exists v, In v l /\ matches g m v cell)).
Proof.
  intros X f g m l cell H. split; intros [v [Hv M]]; exists v; (split; [exact Hv|]); eapply matches_ext; try exact M; auto.
  intros N. symmetry. auto.
Qed.
Lemma where_in : forall (X : Type) (eqX : X -> X -> bool), (forall x y, eqX x y = true <-> x = y) ->
  forall E (m : str -> option X) c sk l lt,
  l <> [] -> (forall v, In v l -> v <> VNone -> text E (VSqlV v) = Ok (lt v)) ->
  exists rel cnd col form,
    mk_in RIn [VSeq sk l] = Ok rel /\
    conds_where (pure_world E) KWhere [] [VStr c; rel] [] = ([cnd], Ok tt) /\
    text E (VSqlR (VStr c)) = Ok col /\
    text E cnd = Ok (written col form) /\
    forall cell, selects (truth1 eqX m cell form) <-> exists v, In v l /\ matches lt m v cell.
Proof.
  intros X eqX Hq E m c sk l lt Hne Hl.
  exists (VRel RIn (VSeq KList l)), (VCond KWhere (VStr c) RIn (VSeq KList l)).
  eexists. eexists. split; [now apply mk_in_seq; left|].
  split; [apply where_new, cond_rel|]. split; [apply col_text|].
  assert (HL : forall v, In v l -> v <> VNone -> exists t, text E (VSqlV v) = Ok t) by eauto.
  split; [apply in_text; auto|].
  intros cell. rewrite (truth_in eqX Hq E m c l). apply matches_list.
  intros v H1 H2. unfold lit_of. now rewrite (Hl v H1 H2).
Qed.
Lemma where_not_in : forall (X : Type) (eqX : X -> X -> bool), (forall x y, eqX x y = true <-> x = y) ->
  forall E (m : str -> option X) c sk l lt,
  l <> [] -> (forall v, In v l -> v <> VNone -> text E (VSqlV v) = Ok (lt v) /\ m (lt v) <> None) ->
  exists rel cnd col form,
    mk_in RNotIn [VSeq sk l] = Ok rel /\
    conds_where (pure_world E) KWhere [] [VStr c; rel] [] = ([cnd], Ok tt) /\
    text E (VSqlR (VStr c)) = Ok col /\
    text E cnd = Ok (written col form) /\
    forall cell, selects (truth1 eqX m cell form) <->
      cell <> None /\ ~ exists v, In v l /\ matches lt m v cell.
Proof.
  intros X eqX Hq E m c sk l lt Hne Hl.
  exists (VRel RNotIn (VSeq KList l)), (VCond KWhere (VStr c) RNotIn (VSeq KList l)).
  eexists. eexists. split; [now apply mk_in_seq; right|].
  split; [apply where_new, cond_rel|]. split; [apply col_text|].
  assert (HL : forall v, In v l -> v <> VNone -> exists t, text E (VSqlV v) = Ok t).
  { intros v H1 H2. destruct (Hl v H1 H2). eauto. }
  split; [apply in_text; auto|].
  intros cell. rewrite (truth_not_in eqX Hq E m l Hne HL).
  2:{ intros v H1 H2. unfold lit_of. destruct (Hl v H1 H2) as [-> K]. exact K. }
  rewrite (matches_list X (lit_of E) lt); [reflexivity|].
  intros v H1 H2. unfold lit_of. now rewrite (proj1 (Hl v H1 H2)).
Qed.
(** A plain sequence means IN. *)
Lemma where_seq_is_in : forall E c sk l, In sk [KList; KTuple; KRange; KGen] ->
  exists rel, mk_in RIn [VSeq sk l] = Ok rel /\
  conds_where (pure_world E) KWhere [] [VStr c; VSeq sk l] [] = conds_where (pure_world E) KWhere [] [VStr c; rel] [].
Proof.
  intros E c sk l H. exists (VRel RIn (VSeq KList l)). split; [now apply mk_in_seq; left|].
  rewrite !where_pair. cbn [foldE nth2]. simpl in H. destruct H as [<-|[<-|[<-|[<-|[]]]]]; reflexivity.
Qed.
Lemma where_in_empty : forall E k c sk, k = RIn \/ k = RNotIn -> exists rel cnd,
  mk_in k [VSeq sk []] = Ok rel /\
  conds_where (pure_world E) KWhere [] [VStr c; rel] [] = ([cnd], Ok tt) /\
  text E cnd = Err EInvalidArgument.
Proof.
  intros E k c sk H. exists (VRel k (VSeq KList [])), (VCond KWhere (VStr c) k (VSeq KList [])).
  split; [now apply mk_in_seq|]. split; [apply where_new, cond_rel|]. rewrite cond_text.
  destruct H as [->| ->]; reflexivity.
Qed.

(** C14 *)
Lemma where_none : forall E c, exists cnd col,
  conds_where (pure_world E) KWhere [] [VStr c; VNone] [] = ([cnd], Ok tt) /\
  text E (VSqlR (VStr c)) = Ok col /\ text E cnd = Ok (col ++ lit " IS NULL").
Proof.
  intros E c. eexists. eexists. split; [now apply where_new|]. split; [apply col_text|].
  rewrite cond_text. unfold fmt_condition, fmt_plain. reflexivity.
Qed.
Lemma where_scalar : forall E c v, is_text v \/ is_number v \/ is_boolean v \/ is_temporal v ->
  exists cnd col tv,
  conds_where (pure_world E) KWhere [] [VStr c; v] [] = ([cnd], Ok tt) /\
  text E (VSqlR (VStr c)) = Ok col /\ text E (VSqlV v) = Ok tv /\
  text E cnd = Ok (col ++ lit " = " ++ tv).
Proof.
  intros E c v H.
  assert (K : mk_condition KWhere (VStr c) v = Ok (VCond KWhere (VStr c) REq v)).
  { destruct H as [[s ->]|[[[z ->]|[[x ->]|[x ->]]]|[[b ->]|[[d ->]|[d [t ->]]]]]]; reflexivity. }
  assert (T : exists tv, text E (VSqlV v) = Ok tv).
  { rewrite text_V. destruct H as [[s ->]|[[[z ->]|[[x ->]|[x ->]]]|[[b ->]|[[d ->]|[d [t ->]]]]]]; cbn [sqlvalue]; eauto. }
  destruct T as [tv T]. eexists. eexists. exists tv. split; [apply where_new, K|]. split; [apply col_text|].
  split; [exact T|]. rewrite cond_text. unfold fmt_condition, fmt_plain. rewrite text_V in T. rewrite T. reflexivity.
Qed.
Lemma where_wrapped : forall E c v, v = VNone \/ is_text v \/ is_number v \/ is_boolean v \/ is_temporal v ->
  exists cnd wrapped t, conds_where (pure_world E) KWhere [] [VStr c; v] [] = ([cnd], Ok tt) /\
  conds_where (pure_world E) KWhere [] [VStr c; VSqlV v] [] = ([wrapped], Ok tt) /\ text E cnd = Ok t /\ text E wrapped = Ok t.
Proof.
  intros E c v [->|H].
  - eexists. eexists. eexists. split; [now apply where_new|]. split; [now apply where_new|]. split; rewrite cond_text; unfold fmt_condition, fmt_plain; reflexivity.
  - destruct (where_scalar E c v H) as (cnd & col & tv & W1 & CC & TV & T). exists cnd. pose proof (col_text E c) as CT.
    assert (K : mk_condition KWhere (VStr c) (VSqlV v) = Ok (VCond KWhere (VStr c) REq (VSqlV v))).
    { destruct H as [[s ->]|[[[z ->]|[[x ->]|[x ->]]]|[[b ->]|[[d ->]|[d [t ->]]]]]]; reflexivity. }
    eexists. exists (col ++ lit " = " ++ tv). split; [exact W1|]. split; [apply where_new, K|]. split; [exact T|].
    rewrite cond_text. unfold fmt_condition, fmt_plain. change (sqlvalue E (text E) (VSqlV v)) with (text E (VSqlV v)). rewrite TV. rewrite CT in CC. injection CC as <-. reflexivity.
Qed.
Lemma where_other_rejected : forall E c v, ~ is_sql_object v ->
  v <> VNone -> ~ (is_text v \/ is_number v \/ is_boolean v \/ is_temporal v) ->
  ~ (exists sk l, In sk [KList; KTuple; KRange; KGen] /\ v = VSeq sk l) ->
  conds_where (pure_world E) KWhere [] [VStr c; v] [] = ([], Err EInvalidArgument).
Proof.
  intros E c v H1 H2 H3 H4. rewrite where_pair. cbn [foldE nth2].
  assert (K : mk_condition KWhere (VStr c) v = Err EInvalidArgument); [|now rewrite K].
  unfold is_sql_object, is_text, is_number, is_boolean, is_temporal in *.
  destruct v; try (exfalso; apply H1; reflexivity); try congruence; try reflexivity;
    try solve [exfalso; apply H3; eauto 12].
  destruct k; try reflexivity; exfalso; apply H4; eexists; eexists; (split; [|reflexivity]); simpl; auto 6.
Qed.

(** C15 *)
Ltac pick := first [ reflexivity | lazymatch goal with
  | |- exists _, _ => eexists; pick
  | |- _ \/ _ => first [left; pick | right; pick]
  end ].
Ltac impossible H := lazymatch type of H with
  | _ \/ _ => destruct H as [H|H]; impossible H
  | exists _, _ => let y := fresh in destruct H as [y H]; impossible H
  | _ => discriminate H
  end.
Lemma relation_types : forall k v,
  (documented k v \/ is_sql_object v -> exists w, mk_in k [v] = Ok (VRel k w)) /\
  (~ (documented k v \/ is_sql_object v) -> mk_in k [v] = Err EInvalidArgument).
Proof.
  intros k v. unfold documented, is_sql_object, is_iterable, is_text, is_number, is_boolean, is_temporal, mk_in, mk_rel. split.
  - intros H. destruct k, v; try match goal with q : seqk |- _ => destruct q end;
    first [ eexists; reflexivity | exfalso; impossible H ].
  - intros H. destruct k, v; try match goal with q : seqk |- _ => destruct q end;
    first [ reflexivity | exfalso; apply H; pick ].
Qed.
