(** Proofs for C45: the clauses of a query. *)
From Coq Require Import Lia.
From Verif Require Import Base BaseFacts NumFmt Value Regex Backend Eq Render RenderFacts
  SpecLex SpecRef SpecRead RefFacts LiteralFacts PfLiterals PfHistories SpecWhole PfWhole PfWholeText.
Open Scope N_scope.

Lemma All_In : forall A (P : A -> Prop) l, All P l <-> forall x, In x l -> P x.
Proof.
  intros A P l; induction l as [|y l IH]; simpl; [intuition contradiction|].
  rewrite IH. split; [intros [H1 H2] x [<-|H]; auto|]. intros H. split; auto.
Qed.
Lemma is_nilb_map : forall A B (f : A -> B) l, is_nilb (map f l) = is_nilb l.
Proof. now destruct l. Qed.
Lemma nilb_not : forall A (l : list A), negb (is_nilb l) = true -> l <> [].
Proof. destruct l; [discriminate|]. intros _ X. discriminate. Qed.

Section Clauses.
Context (E : env).
Notation b := (e_be E).
Notation d := (dialect_of b).
Notation twin := (twin d).
Notation twins := (twins d).
Notation piece := (piece d).
Notation agree := (agree d).
Notation cagree := (cagree d).
Notation clause := (clause d).
Notation r := (text E).
Notation Tcode := (twin_code d (ident_34_96 E)).
Notation Tlead := (twin_lead d (ident_34_96 E)).
Notation Tmid := (twin_mid d (ident_34_96 E)).
Notation Ttrail := (twin_trail d (ident_34_96 E)).
Notation Tparen := (twin_paren d (ident_34_96 E)).

Definition render (k : role) (v : val) : res str :=
  match k with AsName => sqlref E r v | AsValue => sqlvalue E r v | AsSql => r v end.
Definition fine (v : val) : Prop :=
  forall k, harmless b k v -> agree (render k v) (render k (blank k v)) (written b k v).
Definition all_fine (l : list val) : Prop := forall x, In x l -> fine x.

Lemma fine_name : forall x, fine x -> harmless b AsName x ->
  agree (sqlref E r x) (sqlref E r (blank AsName x)) (written b AsName x).
Proof. intros x F H. exact (F AsName H). Qed.
Lemma fine_value : forall x, fine x -> harmless b AsValue x ->
  agree (sqlvalue E r x) (sqlvalue E r (blank AsValue x)) (written b AsValue x).
Proof. intros x F H. exact (F AsValue H). Qed.
Lemma fine_sql : forall x, fine x -> harmless b AsSql x -> agree (r x) (r (blank AsSql x)) (written b AsSql x).
Proof. intros x F H. exact (F AsSql H). Qed.

(** ** Names and aliases *)
Lemma truthy_name : forall a, harmless b AsName a -> truthy (blank AsName a) = truthy a.
Proof. intros a H. destruct a; cbn [harmless] in H; try contradiction; try reflexivity; try discriminate; try (now destruct q).
  now destruct H. Qed.
Lemma untrue_name : forall a, alias_ok (harmless b AsName) a -> truthy a = false -> written b AsName a = [].
Proof.
  intros a H. destruct a; cbn [alias_ok harmless] in H; try contradiction; try reflexivity; try discriminate; try (now destruct q).
  - now destruct H.
  - now destruct H.
Qed.
Lemma aliased_agree : forall n a, fine n -> fine a -> harmless b AsName n -> alias_ok (harmless b AsName) a ->
  agree (aliased_str E r (n, a)) (aliased_str E r (blank AsName n, blank AsName a)) (written b AsName n ++ written b AsName a).
Proof.
  intros n a Fn Fa Hn Ha. unfold aliased_str.
  assert (T : truthy (blank AsName a) = truthy a).
  { destruct a; try (apply truthy_name; exact Ha). reflexivity. }
  rewrite T. destruct (truthy a) eqn:Ta.
  - assert (Ha' : harmless b AsName a) by (destruct a; try exact Ha; discriminate).
    eapply agree_map2; [now apply fine_name|now apply fine_name|]. intros t tb u ub T1 T2.
    now apply (Tmid t tb _ 32 (lit "AS ") u ub).
  - rewrite (untrue_name a Ha Ta), app_nil_r. now apply fine_name.
Qed.
Lemma columns_agree : forall cols, all_fine (flat_map pair_vals cols) ->
  All (pair_ok (harmless b AsName) (alias_ok (harmless b AsName))) cols ->
  agree (columns_str E r cols) (columns_str E r (map (on_pair (blank AsName) (blank AsName)) cols))
        (flat_map (pair_written (written b AsName)) cols).
Proof.
  intros cols F H. destruct cols as [|c0 cols0] eqn:Ec.
  - apply agree_ok. now apply Tcode.
  - rewrite <- Ec in *. unfold columns_str. apply agree_parts; [apply ident_34_96|reflexivity|now left|subst; discriminate|].
    intros [n a] Hx. rewrite All_In in H. specialize (H _ Hx). destruct H as [Hn Ha]. cbn [on_pair pair_written].
    apply aliased_agree; auto; apply F; apply in_flat_map; exists (n, a); simpl; auto.
Qed.
Lemma orders_agree : forall kw (os : list (val * sortd)), kw = [] \/ twin kw kw [] -> os <> [] -> all_fine (map fst os) ->
  All (fun p => match p with (x, _) => harmless b AsName x end) os ->
  agree (orders_str E r kw os) (orders_str E r kw (map (on_fst (blank AsName)) os))
        (flat_map (fun p => match p with (x, _) => written b AsName x end) os).
Proof.
  intros kw os K NE F H. unfold orders_str. apply agree_parts; [apply ident_34_96|reflexivity|exact K|exact NE|].
  intros [x s] Hx. rewrite All_In in H. specialize (H _ Hx). cbn [on_fst order_str].
  assert (A : agree (sqlref E r x) (sqlref E r (blank AsName x)) (written b AsName x)).
  { apply fine_name; [|exact H]. apply F. apply in_map_iff. now exists (x, s). }
  destruct s; [exact A|]. eapply agree_map; [exact A|]. intros t tb T. now apply Ttrail.
Qed.
Lemma conds_agree : forall kw ps, kw = [] \/ twin kw kw [] -> ps <> [] -> all_fine ps -> All (harmless b AsSql) ps ->
  agree (conds_str r kw ps) (conds_str r kw (map (blank AsSql) ps)) (flat_map (written b AsSql) ps).
Proof.
  intros kw ps K NE F H. unfold conds_str. apply agree_parts; [apply ident_34_96|reflexivity|exact K|exact NE|].
  intros x Hx. rewrite All_In in H. apply fine_sql; auto.
Qed.
Lemma values_agree : forall kw ps, kw = [] \/ twin kw kw [] -> ps <> [] -> all_fine ps -> All (harmless b AsSql) ps ->
  agree (values_str r kw ps) (values_str r kw (map (blank AsSql) ps)) (flat_map (written b AsSql) ps).
Proof.
  intros kw ps K NE F H. unfold values_str. apply agree_parts; [apply ident_34_96|reflexivity|exact K|exact NE|].
  intros x Hx. rewrite All_In in H. apply fine_sql; auto.
Qed.

(** ** Joins *)
Notation jblank := (on_join (blank AsName) (blank AsSql)).
Notation jwritten := (join_written (written b AsName) (written b AsSql)).
Notation jok := (join_ok (harmless b AsName) (alias_ok (harmless b AsName)) (harmless b AsSql)).
Lemma join_agree : forall j, all_fine (join_vals j) -> jok j -> agree (join_str E r j) (join_str E r (jblank j)) (jwritten j).
Proof.
  intros [t n a ons] F [Hn [Ha Ho]]. unfold join_str. cbn [on_join j_ons j_name j_alias j_type join_written].
  assert (An : agree (aliased_str E r (n, a)) (aliased_str E r (blank AsName n, blank AsName a)) (written b AsName n ++ written b AsName a)).
  { apply aliased_agree; auto; apply F; simpl; auto. }
  rewrite is_nilb_map. destruct (is_nilb ons) eqn:N.
  - destruct ons; [|discriminate]. cbn [bind flat_map]. rewrite !app_nil_r.
    eapply agree_map; [exact An|]. intros x xb T. rewrite !app_nil_r. rewrite !app_assoc.
    apply Tlead; [|exact T]. destruct t; reflexivity.
  - assert (Co : agree (conds_str r [] ons) (conds_str r [] (map (blank AsSql) ons)) (flat_map (written b AsSql) ons)).
    { apply conds_agree; auto. - destruct ons; [discriminate|]. intros X; discriminate. - intros x Hx. apply F. simpl. auto. }
    intros w X.
    destruct (conds_str r [] ons) as [o|e] eqn:Eo; [|discriminate]. cbn [bind] in X.
    destruct (Co o eq_refl) as [ob [Eob To]]. rewrite Eob. cbn [bind].
    destruct (aliased_str E r (n, a)) as [x|e] eqn:Ex; [|discriminate]. cbn [bind] in X. injection X as <-.
    destruct (An x eq_refl) as [xb [Exb Tx]]. rewrite Exb. cbn [bind]. eexists. split; [reflexivity|].
    pose proof (Tlead (jointy_str t ++ lit " ") _ _ _ (ltac:(destruct t; reflexivity))
      (Tmid x xb _ 32 (lit "ON ") o ob _ Tx eq_refl To)) as Q.
    rewrite <- !app_assoc in Q. exact Q.
Qed.

(** Joins that stay apart. *)
Lemma apart_not_same : forall i j, apart i j -> same_join r i j = Ok false.
Proof.
  intros [t n a o] [t' n' a' o'] [P1 [P2 [P3 [P4 D]]]]. cbn [j_name j_alias] in *. unfold same_join. cbn [j_name j_alias j_ons].
  assert (N : forall x y, plain_name x -> plain_name y -> pyeq r x y = Ok true -> x = y).
  { intros x y Hx Hy. destruct x; try contradiction; destruct y; try contradiction; cbn; try discriminate; auto.
    intros X. injection X as X. apply seqb_eq in X. now subst. }
  assert (B : forall x y, plain_name x -> plain_name y -> exists z, pyeq r x y = Ok z).
  { intros x y Hx Hy. destruct x; try contradiction; destruct y; try contradiction; cbn; eauto. }
  destruct (B n n' P1 P3) as [[] E1]; rewrite E1; cbn [rand bind]; [|reflexivity].
  destruct (B a a' P2 P4) as [[] E2]; rewrite E2; cbn [rand bind]; [|reflexivity].
  apply N in E1, E2; auto. subst. destruct D; contradiction.
Qed.
Lemma group_add_apart : forall j gs, (forall g, In g gs -> same_join r (fst g) j = Ok false) ->
  group_add r j gs = Ok (gs ++ [(j, [])]).
Proof.
  intros j gs; induction gs as [|[h t] gs IH]; intros H; [reflexivity|]. cbn [group_add].
  pose proof (H (h, t) (or_introl eq_refl)) as X. cbn [fst] in X. rewrite X. rewrite IH; [reflexivity|]. intros g Hg. apply H. now right.
Qed.
Lemma group_joins_apart : forall js gs, ForallOrdPairs apart js ->
  (forall g j, In g gs -> In j js -> same_join r (fst g) j = Ok false) ->
  group_joins r js gs = Ok (gs ++ map (fun j => (j, [])) js).
Proof.
  induction js as [|j js IH]; intros gs P H.
  - cbn. now rewrite app_nil_r.
  - cbn [group_joins]. rewrite group_add_apart by (intros g Hg; apply H; [exact Hg|now left]).
    inversion P as [|? ? P1 P2]; subst. rewrite IH; [rewrite <- app_assoc; reflexivity|exact P2|].
    intros g i Hg Hi. apply in_app_iff in Hg. destruct Hg as [Hg|[<-|[]]]; [apply H; [exact Hg|now right]|].
    cbn [fst]. apply apart_not_same. rewrite Forall_forall in P1. auto.
Qed.
Lemma settle_singles : forall js, flat_map settle_group (map (fun j : join val => (j, [])) js) = js.
Proof. induction js as [|j js IH]; [reflexivity|]. cbn [map flat_map settle_group is_nilb negb andb app]. now rewrite IH. Qed.
Lemma minimize_apart : forall js, ForallOrdPairs apart js -> minimize r js = Ok js.
Proof.
  intros js P. unfold minimize. rewrite group_joins_apart; [|exact P|intros g j []]. cbn [bind app]. now rewrite settle_singles.
Qed.
Lemma blank_plain : forall x, plain_name x -> blank AsName x = x.
Proof. now destruct x. Qed.
Lemma apart_blank : forall i j, apart i j -> apart (jblank i) (jblank j).
Proof.
  intros [t n a o] [t' n' a' o'] H. unfold apart in *. cbn [j_name j_alias on_join] in *.
  destruct H as [P1 [P2 [P3 [P4 D]]]]. rewrite !blank_plain by assumption. auto.
Qed.
Lemma apart_map : forall js, ForallOrdPairs apart js -> ForallOrdPairs apart (map jblank js).
Proof.
  induction 1 as [|j js H _ IH]; constructor; auto. rewrite Forall_forall in *. intros x Hx.
  apply in_map_iff in Hx. destruct Hx as [y [<- Hy]]. apply apart_blank. auto.
Qed.
Lemma joins_minimized : forall js js', joins_kept b js -> Forall jok js -> minimize r js = Ok js' ->
  minimize r (map jblank js) = Ok (map jblank js') /\ flat_map jwritten js' = flat_map jwritten js /\
  (js = [] -> js' = []) /\ (js <> [] -> js' <> []) /\ Forall jok js' /\
  (forall j, In j js' -> exists i, In i js /\ join_vals j = join_vals i).
Proof.
  intros js js' K J M.
  assert (One : ForallOrdPairs apart js -> js' = js /\ minimize r (map jblank js) = Ok (map jblank js)).
  { intros P. rewrite (minimize_apart js P) in M. injection M as <-. split; [reflexivity|]. apply minimize_apart. now apply apart_map. }
  destruct K as [K|[K|K]].
  1,2: assert (P : ForallOrdPairs apart js) by
    (exact K || (destruct js as [|j [|? ?]]; [constructor|repeat constructor|cbn in K; lia]));
    destruct (One P) as [-> X]; rewrite X; repeat split; auto; eauto.
  assert (X : map jblank js = js).
  { rewrite <- (map_id js) at 2. apply map_ext_in. intros j Hj. rewrite Forall_forall in K. apply (K j Hj). }
  assert (O : forall x, In x js' -> exists j, In j js /\ j_name x = j_name j /\ j_alias x = j_alias j /\ j_ons x = j_ons j).
  { intros x Hx. destruct (minimize_origin r _ _ M x Hx) as [j [H1 [H2 [H3 [H4 _]]]]]. eauto. }
  assert (X' : map jblank js' = js').
  { rewrite <- (map_id js') at 2. apply map_ext_in. intros x Hx. destruct (O x Hx) as [j [H1 [H2 [H3 H4]]]].
    rewrite Forall_forall in K. destruct (K j H1) as [Kj _]. destruct x as [t n a o], j as [t' n' a' o'].
    cbn [j_name j_alias j_ons on_join] in *. subst. injection Kj as -> -> ->. reflexivity. }
  assert (W : forall l, (forall x, In x l -> jwritten x = []) -> flat_map jwritten l = []).
  { induction l as [|x l IH]; intros H; [reflexivity|]. cbn. rewrite (H x (or_introl eq_refl)), IH; auto. intros y Hy. apply H. now right. }
  rewrite X, X'. split; [exact M|]. split.
  { rewrite !W; [reflexivity| |]; intros x Hx; rewrite Forall_forall in K.
    - apply (K x Hx).
    - destruct (O x Hx) as [j [H1 [H2 [H3 H4]]]]. destruct (K j H1) as [_ Kj]. destruct x, j. cbn in *. subst. exact Kj. }
  split; [intros ->; unfold minimize in M; cbn in M; injection M as <-; reflexivity|].
  split.
  { intros NE Z. subst js'. unfold minimize in M. destruct js as [|j js]; [contradiction|].
    destruct (group_joins r (j :: js) []) as [gs|e] eqn:G; [|discriminate]. cbn [bind] in M. injection M as M.
    assert (GN : gs <> []).
    { cbn [group_joins group_add] in G. revert G. assert (forall js g gs, group_joins r js (g :: gs) <> Ok []).
      { clear. induction js as [|x js IH]; intros g gs X; [discriminate|]. cbn [group_joins] in X.
        destruct (group_add r x (g :: gs)) as [gs'|] eqn:A; [|discriminate].
        destruct gs' as [|g' gs']; [|now apply IH in X]. cbn [group_add] in A. destruct g as [h t].
        destruct (same_join r h x) as [[]|]; try discriminate. destruct (group_add r x gs); discriminate. }
      intros G Z. subst. now apply H in G. }
    destruct gs as [|[h t] gs]; [contradiction|]. cbn [flat_map] in M. unfold settle_group in M at 1.
    destruct (negb (is_nilb t) && existsb is_inner (h :: t)); [discriminate|].
    destruct (negb (is_nilb t) && forallb _ (h :: t)); discriminate. }
  split.
  { rewrite Forall_forall in *. intros x Hx. destruct (O x Hx) as [j [H1 [H2 [H3 H4]]]]. specialize (J j H1).
    destruct x, j. cbn in *. subst. exact J. }
  intros x Hx. destruct (O x Hx) as [j [H1 [H2 [H3 H4]]]]. exists j. split; [exact H1|]. unfold join_vals. now rewrite H2, H3, H4.
Qed.

Lemma table_agree : forall t, all_fine (table_vals t) -> table_ok b (harmless b AsName) (harmless b AsSql) t ->
  agree (table_str E r t) (table_str E r (on_table (blank AsName) (blank AsSql) t))
        (table_written (written b AsName) (written b AsSql) t).
Proof.
  intros [n a js] F [Hn [Ha [Hj K]]]. unfold table_str. cbn [on_table tb_name tb_alias tb_joins table_written].
  rewrite is_nilb_map.
  assert (An : agree (aliased_str E r (n, a)) (aliased_str E r (blank AsName n, blank AsName a)) (written b AsName n ++ written b AsName a)).
  { apply aliased_agree; auto; apply F; simpl; auto. }
  rewrite (app_assoc (written b AsName n)).
  eapply bind_agree; [exact An|]. intros x xb T. destruct (is_nilb js) eqn:N.
  - destruct js; [|discriminate]. cbn [flat_map]. rewrite app_nil_r. now apply agree_ok.
  - intros w X. destruct (minimize r js) as [js'|e] eqn:M; [|discriminate]. cbn [bind] in X.
    assert (J : Forall jok js) by (apply Forall_forall; now apply All_In).
    destruct (joins_minimized js js' K J M) as [M' [W [_ [NE [J' O]]]]]. rewrite M'. cbn [bind].
    rewrite <- W. assert (NE' : js' <> []) by (apply NE; destruct js; [discriminate|intros Y; discriminate]).
    assert (Aj : agree (do ts <- mapM (join_str E r) js'; Ok (sjoin (lit " ") ts))
                       (do ts <- mapM (join_str E r) (map jblank js'); Ok (sjoin (lit " ") ts)) (flat_map jwritten js')).
    { apply agree_join; [apply ident_34_96|reflexivity|exact NE'|]. intros j Hj'. apply join_agree.
      - destruct (O j Hj') as [i [Hi Ei]]. rewrite Ei. intros y Hy. apply F. cbn [table_vals tb_joins]. right. right.
        apply in_flat_map. eauto.
      - rewrite Forall_forall in J'. auto. }
    destruct (mapM (join_str E r) js') as [ts|e]; [|discriminate]. cbn [bind] in X. injection X as <-.
    destruct (Aj _ eq_refl) as [u [Eu Tu]]. destruct (mapM (join_str E r) (map jblank js')) as [ts'|e]; [|discriminate].
    cbn [bind] in *. injection Eu as <-. eexists. split; [reflexivity|]. now apply (Tmid x xb _ 32 []).
Qed.
Lemma tables_agree : forall kw ts, kw = [] \/ twin kw kw [] -> ts <> [] -> all_fine (flat_map table_vals ts) ->
  All (table_ok b (harmless b AsName) (harmless b AsSql)) ts ->
  agree (tables_str E r kw ts) (tables_str E r kw (map (on_table (blank AsName) (blank AsSql)) ts))
        (flat_map (table_written (written b AsName) (written b AsSql)) ts).
Proof.
  intros kw ts K NE F H. unfold tables_str. apply agree_parts; [apply ident_34_96|reflexivity|exact K|exact NE|].
  intros x Hx. rewrite All_In in H. apply table_agree; auto. intros y Hy. apply F. apply in_flat_map. eauto.
Qed.
End Clauses.
