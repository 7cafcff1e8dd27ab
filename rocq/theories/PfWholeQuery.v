(** Proofs for C45: conditions, functions and statements. *)
From Coq Require Import Lia.
From Verif Require Import Base BaseFacts NumFmt Value Regex Backend Eq Render RenderFacts
  SpecLex SpecRef SpecRead RefFacts LiteralFacts PfLiterals PfHistories SpecWhole PfWhole PfWholeText PfWholeClauses.
Open Scope N_scope.

Section Query.
Context (E : env).
Notation b := (e_be E).
Notation d := (dialect_of b).
Notation twin := (twin d).
Notation twins := (twins d).
Notation agree := (agree d).
Notation cagree := (cagree d).
Notation clause := (clause d).
Notation r := (text E).
Notation fine := (fine E).
Notation all_fine := (all_fine E).
Notation Tcode := (twin_code d (ident_34_96 E)).
Notation Tlead := (twin_lead d (ident_34_96 E)).
Notation Tmid := (twin_mid d (ident_34_96 E)).
Notation Ttrail := (twin_trail d (ident_34_96 E)).
Notation Tparen := (twin_paren d (ident_34_96 E)).
Notation Tclause := (twin_clause d (ident_34_96 E)).
Notation D := (ident_34_96 E).

(** ** Objects do not care about their position *)
Lemma object_role : forall v k k', is_sql v = true ->
  blank k v = blank k' v /\ written b k v = written b k' v /\ (harmless b k v <-> harmless b k' v).
Proof. intros v k k' S. destruct v; try discriminate; (split; [reflexivity|]; split; [reflexivity|]; split; intros X; exact X). Qed.
Lemma blank_sql : forall v k, is_sql (blank k v) = is_sql v.
Proof. intros v k. destruct v; try reflexivity; try (now destruct q); now destruct k. Qed.
Lemma blank_query : forall v k, is_sql v = true ->
  (match blank k v with VSelect _ | VUnion _ _ _ => true | _ => false end)
  = (match v with VSelect _ | VUnion _ _ _ => true | _ => false end).
Proof. intros v k S. destruct v; try discriminate; try reflexivity; now destruct q. Qed.

(** str() of objects decides the other positions. *)
Lemma object_fine : forall v, is_sql v = true ->
  (harmless b AsSql v -> agree (r v) (r (blank AsSql v)) (written b AsSql v)) -> fine v.
Proof.
  intros v S A k H. destruct (object_role v k AsSql S) as [B [W HH]]. rewrite W, B. apply HH in H. specialize (A H).
  pose proof (blank_query v AsSql S) as Q. pose proof (blank_sql v AsSql) as S'. rewrite S in S'.
  assert (P : agree (do s <- r v; Ok (paren s)) (do s <- r (blank AsSql v); Ok (paren s)) (written b AsSql v)).
  { eapply agree_map; [exact A|]. intros t tb T. now apply Tparen. }
  destruct k; cbn [render]; [| |exact A].
  - unfold sqlref. destruct v; try discriminate; cbn [is_sql] in *;
      destruct (blank AsSql _) eqn:Eb; try discriminate; cbn [is_sql] in *; try exact A; exact P.
  - destruct v; try discriminate; destruct (blank AsSql _) eqn:Eb; try discriminate; cbn [sqlvalue]; try exact A; try exact P.
    all: cbn [harmless] in H; contradiction.
Qed.

(** ** Values *)
Lemma value_fine : forall v, is_sql v = false -> (forall x, In x (children v) -> fine x) -> fine v.
Proof.
  intros v S F k H. destruct v; try discriminate; cbn [harmless] in H; try contradiction.
  - subst k. apply agree_ok. now apply Tcode.
  - subst k. apply agree_ok. apply twin_bool.
  - destruct k; [| |congruence]; apply agree_ok; apply twin_int.
  - subst k. apply agree_ok. apply twin_float.
  - subst k. apply agree_ok. apply twin_float.
  - destruct k; [| |contradiction]; apply agree_ok; [now apply twin_name|now apply twin_string].
  - destruct H as [-> H]. apply agree_ok. now apply twin_bytes.
  - subst k. apply agree_ok. apply twin_plain. apply date_chars.
  - subst k. apply agree_ok. apply twin_plain. apply datetime_chars.
  - destruct H as [-> [NE H]]. cbn [render blank written].
    assert (T : truthy (VSeq k0 (map (blank AsValue) l)) = truthy (VSeq k0 l)).
    { destruct k0; cbn [truthy]; rewrite ?is_nilb_map; reflexivity. }
    change (sqlvalue E r (VSeq k0 l)) with
      (if truthy (VSeq k0 l) then do ts <- mapM (sqlvalue E r) l; Ok (paren (sjoin (lit ", ") ts)) else Err EInvalidArgument).
    change (sqlvalue E r (VSeq k0 (map (blank AsValue) l))) with
      (if truthy (VSeq k0 (map (blank AsValue) l)) then do ts <- mapM (sqlvalue E r) (map (blank AsValue) l); Ok (paren (sjoin (lit ", ") ts)) else Err EInvalidArgument).
    rewrite T. destruct (truthy (VSeq k0 l)); [|apply agree_err].
    intros w X. destruct (mapM (sqlvalue E r) l) as [ts|e] eqn:M; [|discriminate]. cbn [bind] in X. injection X as <-.
    destruct (mapM_twins d _ (sqlvalue E r) _ (sqlvalue E r) (blank AsValue) (written b AsValue) l ts) as [tbs [-> T']].
    { intros x Hx. apply fine_value; [now apply F|]. rewrite All_In in H. auto. }
    { exact M. }
    cbn [bind]. eexists. split; [reflexivity|]. apply Tparen. rewrite flat_map_concat_map. apply twin_join; auto using ident_34_96.
    destruct l; [contradiction|]. now inversion T'.
Qed.

(** ** Conditions *)
Lemma none_blank : forall k x, is_none (blank k x) = is_none x.
Proof. intros k x. destruct x; try reflexivity; try (now destruct q); now destruct k. Qed.
Lemma filter_blank : forall l, filter (fun x => negb (is_none x)) (map (blank AsValue) l)
  = map (blank AsValue) (filter (fun x => negb (is_none x)) l).
Proof.
  induction l as [|x l IH]; [reflexivity|]. cbn [map filter]. rewrite none_blank. destruct (negb (is_none x)); cbn [map]; now rewrite IH.
Qed.
Lemma existsb_blank : forall l, existsb is_none (map (blank AsValue) l) = existsb is_none l.
Proof. induction l as [|x l IH]; [reflexivity|]. cbn [map existsb]. now rewrite none_blank, IH. Qed.
Lemma written_filter : forall l, flat_map (written b AsValue) (filter (fun x => negb (is_none x)) l) = flat_map (written b AsValue) l.
Proof. induction l as [|x l IH]; [reflexivity|]. cbn [filter flat_map]. destruct x; cbn [is_none negb flat_map]; rewrite IH; reflexivity. Qed.

Lemma plain_agree : forall c cb lc k x xb lx, agree c cb lc -> agree x xb lx ->
  agree (fmt_plain c k x) (fmt_plain cb k xb) (lc ++ lx).
Proof.
  intros c cb lc k x xb lx A B. unfold fmt_plain. eapply agree_map2; [exact A|exact B|].
  intros t tb u ub T U.
  replace (t ++ lit " " ++ rel_str k ++ lit " " ++ u) with (t ++ (32 :: rel_str k ++ lit " ") ++ u)
    by (cbn [app]; rewrite <- !app_assoc; reflexivity).
  replace (tb ++ lit " " ++ rel_str k ++ lit " " ++ ub) with (tb ++ (32 :: rel_str k ++ lit " ") ++ ub)
    by (cbn [app]; rewrite <- !app_assoc; reflexivity).
  apply Tmid; auto. destruct k; reflexivity.
Qed.
Lemma seq_fine : forall l, all_fine l -> All (harmless b AsValue) l -> l <> [] ->
  agree (sqlvalue E r (VSeq KList l)) (sqlvalue E r (VSeq KList (map (blank AsValue) l))) (flat_map (written b AsValue) l).
Proof. intros l F H NE. apply (value_fine (VSeq KList l) eq_refl F AsValue). cbn [harmless]. auto. Qed.
Lemma in_agree : forall c cb lc k kd l, (k = RIn \/ k = RNotIn) -> agree c cb lc ->
  all_fine l -> All (harmless b AsValue) l -> l <> [] ->
  agree (fmt_in c k (sqlvalue E r) (VSeq kd l)) (fmt_in cb k (sqlvalue E r) (VSeq kd (map (blank AsValue) l)))
    (if existsb is_none l && negb (forallb is_none l) then lc ++ flat_map (written b AsValue) l ++ lc
     else lc ++ flat_map (written b AsValue) l).
Proof.
  intros c cb lc k kd l K A F H NE. unfold fmt_in. rewrite existsb_blank, filter_blank, is_nilb_map.
  set (l' := filter (fun x => negb (is_none x)) l).
  assert (N : is_nilb l' = forallb is_none l).
  { unfold l'. clear. induction l as [|x l IH]; [reflexivity|]. cbn [filter forallb]. destruct (is_none x); cbn [negb andb]; auto. }
  rewrite <- (written_filter l). fold l'. rewrite N.
  assert (V : l' <> [] -> agree (sqlvalue E r (VSeq KList l')) (sqlvalue E r (VSeq KList (map (blank AsValue) l'))) (flat_map (written b AsValue) l')).
  { intros NE'. apply seq_fine; auto.
    - intros x Hx. apply F. unfold l' in Hx. now apply filter_In in Hx.
    - rewrite All_In in *. intros x Hx. apply H. unfold l' in Hx. now apply filter_In in Hx. }
  destruct (existsb is_none l) eqn:X; cbn [andb].
  - destruct (forallb is_none l) eqn:Y; cbn [negb].
    + assert (l' = []) as -> by (destruct l'; [reflexivity|discriminate]). cbn [flat_map]. rewrite app_nil_r.
      destruct K as [-> | ->]; (eapply agree_map; [exact A|]); intros t tb T; now apply Ttrail.
    + assert (NE' : l' <> []) by (destruct l'; [discriminate|intros Z; discriminate]). specialize (V NE').
      destruct K as [-> | ->]; (eapply agree_map2; [exact A|exact V|]); intros t tb u ub T U.
      * pose proof (Tlead (lit "(") _ _ _ eq_refl (Tmid _ _ _ 32 (lit "IN ") _ _ _ T eq_refl
          (Tmid _ _ _ 32 (lit "OR ") _ _ _ U eq_refl (Ttrail _ _ _ 32 (lit "IS NULL)") T eq_refl eq_refl)))) as Q. exact Q.
      * pose proof (Tlead (lit "(") _ _ _ eq_refl (Tmid _ _ _ 32 (lit "NOT IN ") _ _ _ T eq_refl
          (Tmid _ _ _ 32 (lit "AND ") _ _ _ U eq_refl (Ttrail _ _ _ 32 (lit "IS NOT NULL)") T eq_refl eq_refl)))) as Q. exact Q.
  - assert (Y : forallb is_none l = false).
    { destruct l as [|x l0]; [contradiction|]. cbn [existsb forallb] in *. apply orb_false_iff in X. destruct X as [-> _]. reflexivity. }
    rewrite Y in N. apply plain_agree; [exact A|]. apply V. destruct l'; [discriminate|intros Z; discriminate].
Qed.
Lemma holds_none_ok : forall k l, holds_none (VSeq k l) = existsb is_none l /\ only_none (VSeq k l) = forallb is_none l.
Proof. intros. split; reflexivity. Qed.
Lemma cond_agree : forall k c rk x, fine c -> fine x -> all_fine (children x) ->
  harmless b AsName c -> harmless b (compared_as k x) x ->
  agree (r (VCond k c rk x)) (r (blank AsSql (VCond k c rk x))) (written b AsSql (VCond k c rk x)).
Proof.
  intros k c rk x Fc Fx Fl Hc Hx. rewrite !text_unfold. cbn [blank str_body].
  assert (Ac := fine_name E c Fc Hc).
  assert (Tr : transformer E r k (blank (compared_as k x) x) = transformer E r k x
               /\ agree (transformer E r k x x) (transformer E r k x (blank (compared_as k x) x)) (written b (compared_as k x) x)).
  { split.
    - destruct k; [reflexivity|]. destruct x; try reflexivity; cbn [compared_as blank]; now destruct q.
    - pose proof (Fx (compared_as k x) Hx) as A. destruct k; [exact A|]. destruct x; exact A. }
  destruct Tr as [Tr Av]. rewrite Tr.
  assert (Pl : agree (fmt_plain (sqlref E r c) rk (transformer E r k x x))
      (fmt_plain (sqlref E r (blank AsName c)) rk (transformer E r k x (blank (compared_as k x) x)))
      (written b AsName c ++ written b (compared_as k x) x)) by (now apply plain_agree).
  destruct (match x with VSeq _ _ => true | _ => false end) eqn:Sq.
  - destruct x as [| | | | | | | | |kd l| | | | | | | | | | | | | | | | | | | | |]; try discriminate.
    assert (Ca : compared_as k (VSeq kd l) = AsValue) by (destruct k; reflexivity). rewrite Ca in *.
    assert (Tv : transformer E r k (VSeq kd l) = sqlvalue E r) by (destruct k; reflexivity). rewrite Tv in *.
    cbn [harmless] in Hx. destruct Hx as [_ [NE Hl]].
    destruct (is_in rk) eqn:I.
    + cbn [blank written]. rewrite Ca, I. destruct (holds_none_ok kd l) as [-> ->]. cbn [andb].
      pose proof (in_agree _ _ _ rk kd l (ltac:(destruct rk; auto; discriminate)) Ac Fl Hl NE) as Q.
      destruct rk; try discriminate; exact Q.
    + cbn [written]. rewrite I, Ca. cbn [andb]. destruct rk; try discriminate; exact Pl.
  - assert (Hn : holds_none x = false) by (destruct x; try reflexivity; discriminate).
    assert (G : written b AsSql (VCond k c rk x) = written b AsName c ++ written b (compared_as k x) x).
    { cbn [written]. rewrite Hn, andb_false_r. reflexivity. }
    rewrite G.
    assert (Fi : forall col tr y, match y with VSeq _ _ => true | _ => false end = false -> fmt_condition col rk tr y = fmt_plain col rk (tr y)).
    { intros col tr y Y. destruct rk; try reflexivity; destruct y; try reflexivity; discriminate. }
    rewrite !Fi; [exact Pl| |exact Sq].
    destruct x; try reflexivity; try discriminate; try (now destruct q); now destruct k.
Qed.

(** ** Functions *)
Lemma expr_agree : forall e, fine e -> all_fine (children e) -> columns_ok (harmless b AsName) e ->
  agree (expr_str E r e) (expr_str E r (blank AsName e)) (written b AsName e).
Proof.
  intros e Fe Fl H.
  assert (One : harmless b AsName e -> (forall l, e <> VSeq KList l) -> (forall l, e <> VSeq KTuple l) ->
    agree (expr_str E r e) (expr_str E r (blank AsName e)) (written b AsName e)).
  { intros Hn H1 H2. pose proof (fine_name E e Fe Hn) as A.
    assert (X : forall y, (forall l, y <> VSeq KList l) -> (forall l, y <> VSeq KTuple l) -> expr_str E r y = sqlref E r y).
    { intros y Y1 Y2. destruct y; try reflexivity. destruct k; try reflexivity; [now destruct (Y1 l)|now destruct (Y2 l)]. }
    rewrite (X e H1 H2). rewrite X; [exact A| |].
    - intros l Z. destruct e; try discriminate; try (now destruct q). cbn in Z. injection Z as -> Z. now destruct (H1 l0).
    - intros l Z. destruct e; try discriminate; try (now destruct q). cbn in Z. injection Z as -> Z. now destruct (H2 l0). }
  destruct e as [| | | | | | | | |kd l| | | | | | | | | | | | | | | | | | | | |]; try (apply One; [exact H| |]; intros; discriminate).
  assert (Many : l <> [] /\ All (harmless b AsName) l ->
    agree (do ts <- mapM (sqlref E r) l; Ok (sjoin (lit ", ") ts))
          (do ts <- mapM (sqlref E r) (map (blank AsName) l); Ok (sjoin (lit ", ") ts)) (flat_map (written b AsName) l)).
  { intros [NE Hl]. apply agree_join; [apply D|reflexivity|exact NE|]. intros x Hx. apply fine_name; [now apply Fl|].
    rewrite All_In in Hl. auto. }
  destruct kd; cbn [columns_ok] in H; try (exact (Many H)); cbn [harmless] in H; destruct H; discriminate.
Qed.
Lemma count_star : forall k e t, agg_expr E r k e = Ok t -> expr_str E r e = Ok t \/ e = VStr (lit "*") /\ t = lit "*".
Proof.
  intros k e t H. destruct k; cbn [agg_expr] in H; auto.
  destruct (pyeq r e (VStr (lit "*"))) as [[]|] eqn:P; cbn [bind] in H; auto; [|discriminate].
  destruct (is_sql e) eqn:S.
  - left. destruct e; try discriminate S; try exact H; cbn in P; discriminate.
  - destruct e; try discriminate P; try (cbn in P; discriminate). right.
    cbn [pyeq textual_eq] in P. injection P as P. apply seqb_eq in P. subst s. split; [reflexivity|].
    rewrite text_unfold in H. cbn in H. now injection H as <-.
Qed.
Lemma count_other : forall k e t, expr_str E r e = Ok t -> (forall s, e <> VStr s) -> agg_expr E r k e = Ok t.
Proof.
  intros k e t H NS. destruct k; cbn [agg_expr]; auto.
  destruct (is_sql e) eqn:S.
  - destruct (textual_eq e) eqn:T.
    + assert (X : expr_str E r e = r e) by (destruct e; try discriminate; reflexivity).
      rewrite X in H. assert (P : pyeq r e (VStr (lit "*")) = Ok (seqb t (lit "*"))).
      { destruct e; try discriminate; cbn [pyeq textual_eq]; rewrite H; reflexivity. }
      rewrite P. cbn [bind]. rewrite X. destruct (seqb t (lit "*")); exact H.
    + assert (P : pyeq r e (VStr (lit "*")) = Ok false) by (destruct e; try discriminate; try reflexivity; now destruct k).
      rewrite P. exact H.
  - assert (P : pyeq r e (VStr (lit "*")) = Ok false) by (destruct e; try discriminate; try reflexivity; now destruct (NS s)).
    rewrite P. exact H.
Qed.
Lemma agg_agree : forall k e, fine e -> all_fine (children e) -> columns_ok (harmless b AsName) e ->
  agree (agg_expr E r k e) (agg_expr E r k (blank AsName e)) (written b AsName e).
Proof.
  intros k e Fe Fl H t X. destruct (count_star k e t X) as [Y|[-> ->]].
  - destruct e as [| | | | |s| | | | | | | | | | | | | | | | | | | | | | | | |] eqn:Ee.
    6: { exists t. split; [exact X|]. destruct (expr_agree _ Fe Fl H t Y) as [tb [Eb T]]. cbn [blank] in Eb. rewrite Y in Eb. injection Eb as <-. exact T. }
    all: destruct (expr_agree _ Fe Fl H t Y) as [tb [Eb T]]; exists tb; split; [|exact T]; apply count_other; [exact Eb|];
      intros s0; cbn [blank]; try (destruct q); discriminate.
  - exists (lit "*"). split; [exact X|]. now apply Tcode.
Qed.
End Query.
