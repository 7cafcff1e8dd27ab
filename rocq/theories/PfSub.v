(** Proofs about programs with queries in their conditions: C80. *)
From Coq Require Import Lia.
From Verif Require Import Base BaseFacts NumFmt Value Backend Eq Render RenderFacts ParseArgs Build Queries History
  SpecLex SpecRef SpecRead SpecLogic SpecConds SpecHistory SpecArgs SpecErrors SpecWhole SpecClauses SpecSql SpecServer SpecProgram SpecNested
  RefFacts PfArgs PfErrors PfAccept PfHistories PfDedupe PfLiterals PfSql PfSqlParse PfSqlCond PfSqlExec PfServer PfProgram PfProgramQ.
From Verif Require SpecSays PfNestRead PfNestVals PfNestText PfNestAll PfNestStmt.
From Verif Require Import SpecNestRows SpecSub.
Import SpecSays(condition, query, refers, object, values, conjunction, clause_said, operand, core_said, query, all_of, not_none, plain_said).
Open Scope N_scope.

(** ** Readings of objects *)
Section Objects.
  Context (b : backend) (E : env).
  Let EB := with_be E b.
  Let W := pure_world EB.
  Notation seg := name_segments.

  Definition list_test (e : nexpr) (ms : list literal) (nul : bool) : ntest :=
    match ms, nul with
    | [], _ => TCompare e CIs (NLiteral LNull)
    | _, false => TIn e false (map NLiteral ms)
    | _, true => TOr (TIn e false (map NLiteral ms)) (TCompare e CIs (NLiteral LNull))
    end.
  Definition not_list_test (e : nexpr) (ms : list literal) (nul : bool) : ntest :=
    match ms, nul with
    | [], _ => TCompare e CIsNot (NLiteral LNull)
    | _, false => TIn e true (map NLiteral ms)
    | _, true => TAnd (TIn e true (map NLiteral ms)) (TCompare e CIsNot (NLiteral LNull))
    end.
  Definition data_test (e : nexpr) (rk : relk) (v : val) : ntest :=
    match rk, v with
    | RIn, VSeq _ l => list_test e (members b l) (existsb is_None l)
    | RNotIn, VSeq _ l => not_list_test e (members b l) (existsb is_None l)
    | _, _ => match operator_of rk, literal_of b v with
              | Some o, Some x => TCompare e o (NLiteral x)
              | _, _ => TCompare e CEq e
              end
    end.
  Definition ref_test (e : nexpr) (rk : relk) (s : str) : ntest :=
    match operator_of rk with Some o => TCompare e o (NColumn (seg s)) | None => TCompare e CEq e end.
  Definition sub_test (e : nexpr) (rk : relk) (q : nquery) : ntest :=
    match rk with
    | RIn => TInSub e false q
    | RNotIn => TInSub e true q
    | _ => match operator_of rk with Some o => TCompare e o (NSub q) | None => TCompare e CEq e end
    end.
  Definition star_if_none (l : list str) : list str := match l with [] => [lit "*"] | _ => l end.
  Inductive cols_as : list (val * val) -> list (nexpr * option path) -> Prop :=
  | ca_names : forall l, Forall (fun c => good_name (quote_of b) c /\ ~ In 40 c) l ->
      cols_as (map (fun c => (VStr c, VNone)) l) (map (fun c => (NColumn (seg c), None)) (star_if_none l))
  | ca_total : forall k d c, good_name (quote_of b) c ->
      cols_as [(VAgg k d (VStr c), VNone)] [(NCall (function_name k) d [NColumn (seg c)], None)].
  Inductive alias_as : val -> option path -> Prop :=
  | aa_none : alias_as VNone None
  | aa_some : forall a, good_name (quote_of b) a -> alias_as (VStr a) (Some (seg a)).

  Inductive scontent : nexpr -> relk -> val -> ntest -> Prop :=
  | ct_data : forall e rk v, content b rk v -> scontent e rk v (data_test e rk v)
  | ct_ref : forall e rk s, operator_of rk <> None -> column_name b s -> scontent e rk (VSqlR (VStr s)) (ref_test e rk s)
  | ct_sub : forall e rk v q, ssel v q -> scontent e rk v (sub_test e rk q)
  with scond : val -> ntest -> Prop :=
  | sc_one : forall c rk v t, good_name (quote_of b) c -> scontent (NColumn (seg c)) rk v t -> scond (VCond KWhere (VStr c) rk v) t
  | sc_q : forall ps ts t, Forall2 scond ps ts -> all_of ts = Some t -> scond (VConds ps) t
  | sc_not : forall ps ts t, Forall2 scond ps ts -> all_of ts = Some t -> scond (VNot ps) (TNot t)
  | sc_and : forall x y t u, scond x t -> scond y u -> scond (VCoC OpAnd x y) (and_then t u)
  | sc_or : forall x y t u, scond x t -> scond y u -> scond (VCoC OpOr x y) (TOr t u)
  | sc_exists : forall v q, ssel v q -> scond (VExists v) (TExists q)
  with ssel : val -> nquery -> Prop :=
  | ss_ : forall cols cs t al alp wh ts, cols_as cols cs -> good_name (quote_of b) t -> alias_as al alp -> Forall2 scond wh ts ->
      ssel (VSelect (MkSel no_selopts cols [MkTable (VStr t) al []] wh [] [] [] (MkLimits None None) (MkOutfile None None None None) false))
        (NQuery (NCore [] cs [NSource (FName (seg t)) alp []] (all_of ts) [] None) [] [] None None None false).

  (** ** They are what SpecSays.v says *)
  Lemma data_value : forall v, datum b v -> exists l, literal_of b v = Some l /\ values EB v (NLiteral l).
  Proof.
    intros v D. assert (P : exists l, plain_literal b v = Some l /\ literal_of b v = Some l) by (destruct (datum_literal b v D) as [y Y]; exists y; split; [exact Y|]; destruct v; try contradiction; exact Y).
    destruct P as [l [P L]]. exists l. split; [exact L|]. apply SpecSays.vl_plain. split; [exact P|]. destruct v; try exact Logic.I; [exact D|contradiction].
  Qed.
  Lemma data_values : forall l, Forall (datum b) l -> Forall2 (values EB) (not_none l) (map NLiteral (members b l)).
  Proof.
    induction 1 as [|v l D F IH]; [constructor|]. unfold not_none, members. cbn [filter flat_map].
    destruct (data_value v D) as [x [L V]]. rewrite L. destruct (is_None v); [exact IH|]. cbn [negb app map]. constructor; [exact V|exact IH].
  Qed.
  Lemma members_none : forall l, Forall (datum b) l -> members b l = [] -> not_none l = [].
  Proof.
    intros l F M. pose proof (data_values l F) as V. rewrite M in V. cbn [map] in V. inversion V. reflexivity.
  Qed.
  Lemma members_some : forall l m ms, Forall (datum b) l -> members b l = m :: ms -> not_none l <> [].
  Proof.
    intros l m ms F M N. pose proof (data_values l F) as V. rewrite M, N in V. inversion V.
  Qed.
  Lemma none_nonempty : forall l, not_none l = [] -> l <> [] -> existsb is_None l = true.
  Proof. intros [|x m] N NE; [congruence|]. unfold not_none in N. cbn [filter] in N. cbn [existsb]. destruct (is_None x); [reflexivity|discriminate N]. Qed.
  Lemma column_refers : forall c, good_name (quote_of b) c -> refers EB (VStr c) (NColumn (seg c)).
  Proof. intros c G. now apply SpecSays.rf_name. Qed.
  Lemma data_condition : forall c rk v, good_name (quote_of b) c -> content b rk v ->
    condition EB (VCond KWhere (VStr c) rk v) (data_test (NColumn (seg c)) rk v).
  Proof.
    intros c rk v G C. pose proof (column_refers c G) as R.
    assert (CMP : forall o, operator_of rk = Some o -> datum b v -> condition EB (VCond KWhere (VStr c) rk v) (data_test (NColumn (seg c)) rk v)).
    { intros o O D. destruct (data_value v D) as [x [L V]]. unfold data_test. rewrite L, O.
      assert (Q : condition EB (VCond KWhere (VStr c) rk v) (TCompare (NColumn (seg c)) o (NLiteral x))).
      { apply SpecSays.cd_compare; auto. apply SpecSays.op_value; [exact Logic.I|exact V]. }
      destruct rk; try exact Q; discriminate O. }
    destruct rk; try (eapply CMP; [reflexivity|exact C]); clear CMP; destruct C as [l [-> [NE F]]]; cbn [data_test]; pose proof (data_values l F) as V.
    - destruct (members b l) as [|m ms] eqn:M.
      + apply SpecSays.cd_null; [exact R|now apply members_none|]. apply none_nonempty; [now apply members_none|exact NE].
      + destruct (existsb is_None l) eqn:N; cbn [list_test].
        * apply SpecSays.cd_in_null; auto. eapply members_some; eauto.
        * apply SpecSays.cd_in; auto. assert (Q : not_none l = l); [|now rewrite Q in V].
          clear -N. unfold not_none. induction l as [|x l IH]; [reflexivity|]. cbn [existsb] in N. apply orb_false_iff in N. destruct N as [A B]. cbn [filter]. rewrite A. cbn [negb]. now rewrite IH.
    - destruct (members b l) as [|m ms] eqn:M.
      + apply SpecSays.cd_not_null; [exact R|now apply members_none|]. apply none_nonempty; [now apply members_none|exact NE].
      + destruct (existsb is_None l) eqn:N; cbn [not_list_test].
        * apply SpecSays.cd_not_in_null; auto. eapply members_some; eauto.
        * apply SpecSays.cd_not_in; auto. assert (Q : not_none l = l); [|now rewrite Q in V].
          clear -N. unfold not_none. induction l as [|x l IH]; [reflexivity|]. cbn [existsb] in N. apply orb_false_iff in N. destruct N as [A B]. cbn [filter]. rewrite A. cbn [negb]. now rewrite IH.
  Qed.
  Lemma alias_said : forall a o, alias_as a o -> SpecSays.alias_said b a o.
  Proof. intros a o [|s G]; [split; [exact Logic.I|reflexivity]|]. split; [exact G|]. split; [discriminate|reflexivity]. Qed.
  Lemma star_good : good_name (quote_of b) (lit "*").
  Proof. split; [destruct b; intros [H|[]]; discriminate H|discriminate]. Qed.
  Lemma cols_said : forall cols cs, cols_as cols cs -> Forall2 (SpecSays.column EB) (columns_asked cols) cs.
  Proof.
    intros cols cs [l F|k d c G].
    - assert (Q : forall l, Forall (fun c => good_name (quote_of b) c) l -> Forall2 (SpecSays.column EB) (map (fun c => (VStr c, VNone)) l) (map (fun c => (NColumn (seg c), None)) l)).
      { clear. induction 1 as [|c l G F IH]; cbn [map]; constructor; auto. apply SpecSays.column_; [now apply column_refers|apply (alias_said VNone None); constructor]. }
      destruct l as [|c l]; [apply (Q [lit "*"]); constructor; [apply star_good|constructor]|]. apply (Q (c :: l)). eapply Forall_impl; [|exact F]. now intros a [A _].
    - constructor; [|constructor]. apply SpecSays.column_; [apply SpecSays.rf_object, SpecSays.ob_agg; now apply column_refers|apply (alias_said VNone None); constructor].
  Qed.
  Lemma all_some : forall ts, ts <> [] -> exists t, all_of ts = Some t.
  Proof. intros [|t ts] H; [congruence|]. cbn [all_of]. destruct (all_of ts); eauto. Qed.
  Lemma conjoined : forall ps ts, Forall2 scond ps ts -> (forall x t, In x ps -> scond x t -> condition EB x t) -> Forall2 (condition EB) ps ts.
  Proof. induction 1 as [|x t ps ts X F IH]; intros H; constructor; [apply H; [now left|exact X]|]. apply IH. intros y u I. apply H. now right. Qed.
  Lemma clause_as : forall ps ts, Forall2 (condition EB) ps ts -> clause_said EB ps (all_of ts).
  Proof.
    intros ps ts F. destruct F as [|x t ps ts X F]; [apply SpecSays.cs_none|]. destruct (all_some (t :: ts)) as [u U]; [discriminate|]. rewrite U.
    apply SpecSays.cs_some; [discriminate|]. eapply SpecSays.conj_; [constructor; eassumption|exact U].
  Qed.
  Lemma said : forall n x, (depth x < n)%nat -> (forall t, scond x t -> condition EB x t) /\ (forall q, ssel x q -> query EB x q).
  Proof.
    induction n as [|n IH]; intros x L; [lia|].
    assert (K : forall y, In y (children x) -> (depth y < n)%nat) by (intros y I; apply children_depth in I; lia).
    assert (C : forall ps ts, (forall y, In y ps -> In y (children x)) -> Forall2 scond ps ts -> Forall2 (condition EB) ps ts).
    { intros ps ts S F. apply conjoined; [exact F|]. intros y u I. apply (IH y). apply K, S, I. }
    split.
    - intros t S. inversion S as [c rk v t' G CT|ps ts t' F A|ps ts t' F A|u v t1 t2 S1 S2|u v t1 t2 S1 S2|v q Q]; subst.
      + inversion CT as [? ? ? D|? ? s O G'|? ? ? q Q]; subst.
        * now apply data_condition.
        * unfold ref_test. destruct (operator_of rk) as [o|] eqn:O'; [|congruence]. apply SpecSays.cd_compare; [now apply column_refers|exact O'|].
          apply SpecSays.op_value; [exact Logic.I|]. apply SpecSays.vl_object, SpecSays.ob_refer. apply column_refers, G'.
        * assert (QQ : query EB v q) by (apply (IH v); [apply K; right; left; reflexivity|exact Q]).
          assert (CMP : forall o, operator_of rk = Some o -> condition EB (VCond KWhere (VStr c) rk v) (TCompare (NColumn (seg c)) o (NSub q))).
          { intros o O. apply SpecSays.cd_compare; [now apply column_refers|exact O|]. apply SpecSays.op_value; [exact Logic.I|]. now apply SpecSays.vl_object, SpecSays.ob_query. }
          destruct rk; try (apply CMP; reflexivity); [apply SpecSays.cd_in_query|apply SpecSays.cd_not_in_query]; auto using column_refers.
      + apply SpecSays.cd_q. eapply SpecSays.conj_; [|exact A]. apply C; [auto|exact F].
      + apply SpecSays.cd_not. eapply SpecSays.conj_; [|exact A]. apply C; [auto|exact F].
      + apply SpecSays.cd_and; [apply (IH u)|apply (IH v)]; auto; apply K; [now left|right; now left].
      + apply SpecSays.cd_or; [apply (IH u)|apply (IH v)]; auto; apply K; [now left|right; now left].
      + apply SpecSays.cd_exists. apply (IH v); [apply K; now left|exact Q].
    - intros q S. inversion S as [cols cs t al alp wh ts CA G AL F]; subst.
      match goal with |- query _ (VSelect ?s) (NQuery ?c _ _ _ _ _ _) => change (query EB (VSelect s) (NQuery c [] [] (l_limit (s_limit s)) (l_offset (s_limit s)) None (s_forupd s))) end.
      apply SpecSays.qu_select; [|constructor|apply SpecSays.os_none; reflexivity].
      assert (O : SpecSays.options_said no_selopts = []) by reflexivity. rewrite <- O.
      apply SpecSays.core_; [now apply cols_said| | |constructor|apply SpecSays.cs_none].
      + constructor; [|constructor]. eapply SpecSays.tbl_; [|now apply alias_said|apply mg_nil|constructor]. apply SpecSays.fs_name; [exact G|reflexivity].
      + apply clause_as, C; [|exact F]. intros y I. cbn [children sel_vals]. unfold sel_vals. cbn. apply in_or_app. right. destruct al; cbn; intuition.
  Qed.
  Lemma scond_said : forall x t, scond x t -> condition EB x t.
  Proof. intros x t. apply (said (S (depth x))). lia. Qed.
  Lemma ssel_said : forall x q, ssel x q -> query EB x q.
  Proof. intros x q. apply (said (S (depth x))). lia. Qed.

  (** ** Python's == on them *)
  Lemma object_unique : forall x y e e' t, object EB x e -> object EB y e' ->
    sqlref EB (text EB) x = Ok t -> sqlref EB (text EB) y = Ok t -> e = e'.
  Proof.
    intros x y e e' t X Y TX TY.
    destruct (proj1 (PfNestAll.all_good EB x) e X) as [t1 [l1 [A1 [B1 C1]]]], (proj1 (PfNestAll.all_good EB y) e' Y) as [t2 [l2 [A2 [B2 C2]]]].
    assert (t1 = t) by congruence. assert (t2 = t) by congruence. subst t1 t2.
    apply tells_lexemes in B1. apply tells_lexemes in B2. assert (Q : l1 = l2) by congruence. rewrite <- Q in C2.
    destruct (PfNestText.xreads_at _ _ (List.length l1) C1 (le_n _)) as [_ R1], (PfNestText.xreads_at _ _ (List.length l1) C2 (le_n _)) as [_ R2].
    specialize (R1 [] Logic.I). specialize (R2 [] Logic.I). rewrite R1 in R2. now injection R2.
  Qed.
  Lemma condition_text : forall x t, condition EB x t -> exists s, text EB x = Ok s.
  Proof. intros x t H. destruct (PfNestStmt.condition_read EB x t H) as [s [S _]]. eauto. Qed.
  Lemma condition_unique : forall x y t u s, condition EB x t -> condition EB y u -> text EB x = Ok s -> text EB y = Ok s -> t = u.
  Proof.
    intros x y t u s X Y TX TY. destruct (PfNestStmt.condition_read EB x t X) as [s1 [A1 B1]], (PfNestStmt.condition_read EB y u Y) as [s2 [A2 B2]].
    assert (s1 = s) by congruence. assert (s2 = s) by congruence. subst. rewrite B1 in B2. now injection B2.
  Qed.
  Lemma ident_quoted : forall x, x <> [] -> ~ In (quote_of b) x -> quoted_ident (quote_of b) (quote_of b :: x ++ [quote_of b]).
  Proof.
    intros x NE N. apply quoted_ident_intro; [exact NE|]. clear NE. induction x as [|c x IH]; [constructor|].
    constructor; [intros ->; apply N; now left|]. apply IH. intros I. apply N. now right.
  Qed.
  Lemma ref_text : forall s, column_name b s -> exists t, text EB (VSqlR (VStr s)) = Ok t /\ reference_shaped (quote_of b) t.
  Proof.
    intros s [[G NE] [L3 NS]]. exists (reference b s). split; [now rewrite text_R|].
    rewrite (reference_noquote b s G). set (q := quote_of b).
    assert (P : forall x, In x (seg s) -> quote_part q x = q :: x ++ [q] /\ quoted_ident q (q :: x ++ [q])).
    { intros x I. destruct (name_segments_ok s x I) as [A [_ C]]. split.
      - unfold quote_part. destruct (seqb x [c_star]) eqn:Q; [|reflexivity]. apply seqb_eq in Q. subst x. now destruct NS.
      - apply ident_quoted; [exact A|]. intros J. apply G, C, J. }
    assert (WS : ~ whitespace q) by (unfold q; destruct b; intros H; apply whitespace_ok in H; discriminate H).
    assert (RP : reference_path q (sjoin [46] (map (quote_part q) (seg s))) /\ (exists m, sjoin [46] (map (quote_part q) (seg s)) = q :: m) /\
      exists m, sjoin [46] (map (quote_part q) (seg s)) = m ++ [q]).
    { destruct (seg s) as [|x [|y [|z [|w l]]]]; [congruence| | | |cbn in L3; lia]; cbn [map sjoin].
      - destruct (P x) as [-> Q1]; [now left|]. split; [now apply path1|]. split; [eexists; reflexivity|]. exists (q :: x). reflexivity.
      - destruct (P x) as [-> Q1]; [now left|]. destruct (P y) as [-> Q2]; [right; now left|].
        split; [apply path2; [exact Q1|now left]|]. split; [eexists; reflexivity|]. exists ((q :: x ++ [q]) ++ [46] ++ q :: y). rewrite <- !app_assoc. reflexivity.
      - destruct (P x) as [-> Q1]; [now left|]. destruct (P y) as [-> Q2]; [right; now left|]. destruct (P z) as [-> Q3]; [right; right; now left|].
        split; [apply path3; [exact Q1|now left|now left]|]. split; [eexists; reflexivity|]. exists ((q :: x ++ [q]) ++ [46] ++ (q :: y ++ [q]) ++ [46] ++ q :: z). rewrite <- !app_assoc. reflexivity. }
    destruct RP as [R [[m1 M1] [m2 M2]]]. eexists. split; [|exact R]. exists [], []. rewrite app_nil_r. split; [reflexivity|]. split; [constructor|]. split; [constructor|]. split.
    - intros c x Q. rewrite M1 in Q. injection Q as <- _. exact WS.
    - intros c x Q. rewrite M2 in Q. apply app_inj_tail in Q. destruct Q as [_ <-]. exact WS.
  Qed.
  Lemma select_text : forall x q, ssel x q -> exists t, text EB x = Ok t /\ exists u, lexemes (dialect_of b) t = XWord (lit "SELECT") :: u.
  Proof.
    intros x q S. apply ssel_said in S. destruct (proj1 (proj2 (PfNestAll.all_good EB x)) q S) as [t [ls [T [L [[u U] _]]]]].
    exists t. split; [exact T|]. exists u. subst ls. exact (tells_lexemes _ _ _ L).
  Qed.
  Lemma ref_lexemes : forall s t, column_name b s -> text EB (VSqlR (VStr s)) = Ok t -> lexemes (dialect_of b) t = path_lexemes (seg s).
  Proof.
    intros s t [G _] T. destruct (PfNestVals.name_text EB (VStr s) (seg s) G eq_refl) as [t' [T' [_ L]]].
    rewrite text_R in T. rewrite T in T'. injection T' as <-. exact (tells_lexemes _ _ _ L).
  Qed.
  Lemma path_not_select : forall p u, path_lexemes p <> XWord (lit "SELECT") :: u.
  Proof. intros [|s [|y p]] u; cbn [path_lexemes]; [discriminate| |]; destruct (seqb s [42]); discriminate. Qed.
  Lemma agg_text : forall k d c, exists t, text EB (VAgg k d (VStr c)) = Ok t /\ In 40 t.
  Proof.
    intros k d s. rewrite text_unfold. cbn [str_body].
    assert (A : exists u, agg_expr EB (text EB) k (VStr s) = Ok u) by (unfold agg_expr; destruct k; try (eexists; reflexivity); cbn [pyeq textual_eq bind]; destruct (seqb s (lit "*")); eexists; reflexivity).
    destruct A as [u ->]. cbn [bind]. eexists. split; [reflexivity|]. apply in_or_app. right. now left.
  Qed.

  Definition eq_then (x y : val) (P : Prop) : Prop := exists z, pyeq (text EB) x y = Ok z /\ (z = true -> P).
  Lemma data_same : forall e rk v w, content b rk v -> content b rk w -> pyeq (text EB) v w = Ok true -> data_test e rk v = data_test e rk w.
  Proof.
    intros e rk v w V W' H.
    assert (D : datum b v -> datum b w -> literal_of b v = literal_of b w) by (intros A B; now destruct (datum_same b (text EB) v w A B H)).
    destruct rk; cbn [content] in V, W';
      try (unfold data_test; rewrite (D V W'); destruct v; try contradiction; destruct w; try contradiction; reflexivity);
      destruct V as [l [-> [_ F]]], W' as [m [-> [_ F']]]; cbn [pyeq textual_eq seqk_eqb] in H; destruct (list_same b (text EB) l m F F' H) as [A B]; cbn [data_test]; now rewrite A, B.
  Qed.
  Lemma content_kind : forall rk v, content b rk v -> datum b v \/ exists l, v = VSeq KList l.
  Proof. intros rk v C. destruct rk; try (now left); destruct C as [l [-> _]]; right; eauto. Qed.
  Lemma content_eq : forall e rk v t rk' w u, scontent e rk v t -> scontent e rk' w u ->
    (forall q q', ssel v q -> ssel w q' -> eq_then v w (q = q')) -> eq_then v w (rk = rk' -> t = u).
  Proof.
    intros e rk v t rk' w u V W' IH.
    assert (FF : forall P, pyeq (text EB) v w = Ok false -> eq_then v w P) by (intros P H; exists false; split; [exact H|discriminate]).
    inversion V as [? ? ? C|? ? s O N|? ? ? q S]; subst; inversion W' as [? ? ? C'|? ? s' O' N'|? ? ? q' S']; subst.
    - destruct (content_total b (text EB) _ _ _ _ C C') as [z Z]. exists z. split; [exact Z|]. intros -> <-. now apply data_same.
    - apply FF. destruct (ref_text s' N') as [t [T R]]. destruct (content_kind _ _ C) as [D|[l ->]]; [|reflexivity].
      destruct v; try contradiction; try reflexivity. cbn [pyeq textual_eq]. rewrite T. cbn [bind]. destruct (seqb t s) eqn:Q; [|reflexivity].
      apply seqb_eq in Q. subst. contradiction.
    - apply FF. inversion S'; subst. destruct (content_kind _ _ C) as [D|[l ->]]; [|reflexivity]. destruct v; try contradiction; reflexivity.
    - apply FF. destruct (ref_text s N) as [t [T R]]. destruct (content_kind _ _ C') as [D|[l ->]]; [|reflexivity].
      destruct w; try contradiction; try reflexivity. cbn [pyeq textual_eq]. rewrite T. cbn [bind]. destruct (seqb t s0) eqn:Q; [|reflexivity].
      apply seqb_eq in Q. subst. contradiction.
    - destruct (ref_text s N) as [t [T R]], (ref_text s' N') as [t' [T' R']]. exists (seqb t t'). split; [cbn [pyeq textual_eq is_sql]; now rewrite T, T'|].
      intros Q <-. apply seqb_eq in Q. subst t'. assert (A : NColumn (seg s) = NColumn (seg s')).
      { apply (object_unique (VSqlR (VStr s)) (VSqlR (VStr s')) _ _ t); try (apply SpecSays.ob_refer, column_refers); [apply N|apply N'|exact T|exact T']. }
      injection A as A. unfold ref_test. now rewrite A.
    - apply FF. destruct (ref_text s N) as [t [T R]]. destruct (select_text w q' S') as [t' [T' [u' U]]].
      assert (Q : pyeq (text EB) (VSqlR (VStr s)) w = Ok (seqb t t')).
      { inversion S'; subst. cbn [pyeq textual_eq is_sql]. now rewrite T, T'. }
      rewrite Q. f_equal. destruct (seqb t t') eqn:X; [|reflexivity]. apply seqb_eq in X. subst t'. rewrite (ref_lexemes s t N T) in U. now apply path_not_select in U.
    - apply FF. inversion S; subst. destruct (content_kind _ _ C') as [D|[l ->]]; [|reflexivity]. destruct w; try contradiction; reflexivity.
    - apply FF. inversion S; subst. reflexivity.
    - destruct (IH q q' S S') as [z [Z1 Z2]]. exists z. split; [exact Z1|]. intros Z <-. now rewrite (Z2 Z).
  Qed.
  (** Lists of conditions. *)
  Lemma list_eq_then : forall A (R : val -> A -> Prop) ps ts qs us, Forall2 R ps ts -> Forall2 R qs us ->
    (forall x y t u, In x ps -> R x t -> R y u -> eq_then x y (t = u)) ->
    exists z, list_eq (pyeq (text EB)) ps qs = Ok z /\ (z = true -> ts = us).
  Proof.
    intros A R ps ts qs us P Q H. unfold list_eq. destruct (Nat.eqb (List.length ps) (List.length qs)) eqn:L; [|exists false; split; [reflexivity|discriminate]].
    apply Nat.eqb_eq in L. revert qs us Q L. induction P as [|x t ps ts X P IH]; intros qs us Q L.
    - destruct Q as [|y u qs us Y Q]; [|discriminate L]. exists true. split; reflexivity.
    - destruct Q as [|y u qs us Y Q]; [discriminate L|]. injection L as L.
      destruct (H x y t u (or_introl eq_refl) X Y) as [z [Z1 Z2]]. destruct (IH (fun x' y' t' u' I => H x' y' t' u' (or_intror I)) qs us Q L) as [z' [Z1' Z2']].
      cbn [all2]. rewrite Z1. destruct z; cbn [rand].
      + exists z'. split; [exact Z1'|]. intros Z. now rewrite (Z2 eq_refl), (Z2' Z).
      + exists false. split; [reflexivity|discriminate].
  Qed.
  Lemma cols_eq : forall cols cs cols' cs', cols_as cols cs -> cols_as cols' cs' ->
    exists z, list_eq (pair_eq (pyeq (text EB))) cols cols' = Ok z /\ (z = true -> cs = cs').
  Proof.
    assert (NN : forall l l', exists z, list_eq (pair_eq (pyeq (text EB))) (map (fun c => (VStr c, VNone)) l) (map (fun c => (VStr c, VNone)) l') = Ok z /\ (z = true -> l = l')).
    { intros l l'. unfold list_eq. rewrite !map_length. destruct (Nat.eqb (List.length l) (List.length l')) eqn:L; [|exists false; split; [reflexivity|discriminate]].
      apply Nat.eqb_eq in L. revert l' L. induction l as [|c l IH]; intros [|c' l'] L; try discriminate L; [exists true; now split|]. injection L as L.
      destruct (IH l' L) as [z [Z1 Z2]]. cbn [map all2 pair_eq pyeq textual_eq is_none]. cbn [rand]. destruct (seqb c c') eqn:Q; cbn [rand].
      - exists z. split; [exact Z1|]. intros Z. apply seqb_eq in Q. now rewrite Q, (Z2 Z).
      - exists false. split; [reflexivity|discriminate]. }
    assert (ST : forall c t, In 40 t -> ~ In 40 c -> seqb t c = false).
    { intros c t I N. destruct (seqb t c) eqn:Q; [|reflexivity]. apply seqb_eq in Q. congruence. }
    intros cols cs cols' cs' [l F|k d c G] [l' F'|k' d' c' G'].
    - destruct (NN l l') as [z [Z1 Z2]]. exists z. split; [exact Z1|]. intros Z. now rewrite (Z2 Z).
    - exists false. split; [|discriminate]. destruct l as [|c [|c2 l]]; [reflexivity| |reflexivity]. destruct (agg_text k' d' c') as [t [T I]].
      inversion F as [|? ? [_ N] _]; subst. unfold list_eq. cbn [map List.length Nat.eqb all2 pair_eq pyeq textual_eq]. rewrite T. cbn [bind]. now rewrite (ST c t I N).
    - exists false. split; [|discriminate]. destruct l' as [|c' [|c2 l']]; [reflexivity| |reflexivity]. destruct (agg_text k d c) as [t [T I]].
      inversion F' as [|? ? [_ N] _]; subst. unfold list_eq. cbn [map List.length Nat.eqb all2 pair_eq pyeq textual_eq]. rewrite T. cbn [bind]. now rewrite (ST c' t I N).
    - destruct (agg_text k d c) as [t [T _]], (agg_text k' d' c') as [t' [T' _]]. exists (seqb t t'). split.
      + unfold list_eq. cbn [map List.length Nat.eqb all2 pair_eq pyeq textual_eq is_sql is_none]. rewrite T, T'. cbn [bind]. destruct (seqb t t'); reflexivity.
      + intros Q. apply seqb_eq in Q. subst t'.
        rewrite (object_unique (VAgg k d (VStr c)) (VAgg k' d' (VStr c')) (NCall (function_name k) d [NColumn (seg c)]) (NCall (function_name k') d' [NColumn (seg c')]) t);
          [reflexivity| | |exact T|exact T']; apply SpecSays.ob_agg, column_refers; assumption.
  Qed.
  Lemma alias_eq : forall a o a' o', alias_as a o -> alias_as a' o' -> eq_then a a' (o = o').
  Proof.
    intros a o a' o' [|s G] [|s' G']; unfold eq_then; cbn [pyeq textual_eq is_none]; eexists; (split; [reflexivity|]); try reflexivity; try discriminate.
    intros Q. apply seqb_eq in Q. now subst.
  Qed.
  Lemma textual_then : forall x y t u, scond x t -> scond y u -> textual_eq x = true -> eq_then x y (t = u).
  Proof.
    intros x y t u X Y T. pose proof (scond_said x t X) as CX. pose proof (scond_said y u Y) as CY.
    destruct (condition_text x t CX) as [s S], (condition_text y u CY) as [s' S'].
    assert (SQ : is_sql y = true) by (destruct Y; reflexivity).
    exists (seqb s s'). split.
    - destruct x; try discriminate T; cbn [pyeq]; rewrite T; destruct y; try discriminate SQ; cbn [is_sql]; rewrite S, S'; reflexivity.
    - intros Q. apply seqb_eq in Q. subst s'. exact (condition_unique x y t u s CX CY S S').
  Qed.
  Lemma eq_step : forall n x, (depth x < n)%nat ->
    (forall y t u, scond x t -> scond y u -> eq_then x y (t = u)) /\ (forall y q q', ssel x q -> ssel y q' -> eq_then x y (q = q')).
  Proof.
    induction n as [|n IH]; intros x L; [lia|].
    assert (K : forall y, In y (children x) -> (depth y < n)%nat) by (intros y I; apply children_depth in I; lia).
    split.
    - intros y t u X Y. destruct (textual_eq x) eqn:TX; [now apply textual_then|].
      assert (FF : forall P, pyeq (text EB) x y = Ok false -> eq_then x y P) by (intros P H; exists false; split; [exact H|discriminate]).
      inversion X as [c rk v t' G CT|ps ts t' F A|ps ts t' F A|x1 x2 t1 t2 S1 S2|x1 x2 t1 t2 S1 S2|v q Q]; subst; try discriminate TX.
      + inversion Y as [c' rk' v' u' G' CT'|ps' ts' u' F' A'|ps' ts' u' F' A'|x1' x2' t1' t2' S1' S2'|x1' x2' t1' t2' S1' S2'|v' q' Q']; subst; try (apply FF; reflexivity).
        unfold eq_then. cbn [pyeq textual_eq]. destruct (seqb c c') eqn:Q; cbn [rand]; [|exists false; split; [reflexivity|discriminate]].
        apply seqb_eq in Q. subst c'.
        destruct (content_eq _ _ _ _ _ _ _ CT CT') as [z [Z1 Z2]].
        { intros q q' S S'. apply (proj2 (IH v (K v (or_intror (or_introl eq_refl))))); assumption. }
        rewrite Z1. destruct z; cbn [rand]; [|exists false; split; [reflexivity|discriminate]].
        exists (relk_eqb rk rk'). split; [reflexivity|]. intros R. apply Z2; [reflexivity|]. destruct rk, rk'; try discriminate R; reflexivity.
      + inversion Y as [c' rk' v' u' G' CT'|ps' ts' u' F' A'|ps' ts' u' F' A'|x1' x2' t1' t2' S1' S2'|x1' x2' t1' t2' S1' S2'|v' q' Q']; subst; try (apply FF; reflexivity).
        destruct (list_eq_then _ scond ps ts ps' ts' F F') as [z [Z1 Z2]].
        { intros p p' t0 u0 I. apply (proj1 (IH p (K p I))). }
        exists z. split; [exact Z1|]. intros Z. rewrite (Z2 Z) in A. congruence.
    - intros y q q' X Y. inversion X as [cols cs t al alp wh ts CA G AL F]; subst. inversion Y as [cols' cs' t' al' alp' wh' ts' CA' G' AL' F']; subst.
      destruct (cols_eq _ _ _ _ CA CA') as [zc [C1 C2]]. destruct (alias_eq _ _ _ _ AL AL') as [za [A1 A2]].
      destruct (list_eq_then _ scond wh ts wh' ts' F F') as [zw [W1 W2]].
      { intros p p' t0 u0 I. apply (proj1 (IH p ltac:(apply K; cbn; apply in_or_app; right; destruct al; cbn; intuition))). }
      unfold eq_then. cbn [pyeq textual_eq sel_eq]. rewrite C1, W1. destruct zc; cbn [rand]; [|exists false; split; [reflexivity|discriminate]].
      unfold list_eq at 1 2 3 4. cbn [List.length Nat.eqb all2 rand out_eq opt_eq limits_eqb optZ_eqb l_limit l_offset andb Bool.eqb table_eq join_eq].
      change (selopts_eqb no_selopts no_selopts) with true. cbn [rand pyeq textual_eq]. destruct (seqb t t') eqn:Q; cbn [rand]; [|exists false; split; [reflexivity|discriminate]].
      rewrite A1. destruct za; cbn [rand]; [|exists false; split; [reflexivity|discriminate]].
      unfold list_eq. cbn [List.length Nat.eqb all2 rand]. exists zw. split; [reflexivity|]. intros Z. apply seqb_eq in Q. subst t'.
      now rewrite (C2 eq_refl), (A2 eq_refl), (W2 Z).
  Qed.
  Lemma scond_eq : forall x y t u, scond x t -> scond y u -> eq_then x y (t = u).
  Proof. intros x y t u. apply (proj1 (eq_step (S (depth x)) x (le_n _))). Qed.

  (** ** What the readings mean *)
  Lemma both_assoc : forall x y z, both x (both y z) = both (both x y) z.
  Proof. intros [x|] [y|] [z|]; cbn; try reflexivity. now rewrite and3_assoc. Qed.
  Lemma both_comm : forall x y, both x y = both y x.
  Proof. intros [x|] [y|]; cbn; try reflexivity. now rewrite and3_comm. Qed.
  Lemma both_idem : forall x, both x x = x.
  Proof. intros [x|]; cbn; try reflexivity. now rewrite and3_idem. Qed.
  Lemma both_unit : forall x, both x (Some (Some true)) = x.
  Proof. intros [x|]; cbn; try reflexivity. now rewrite and3_unit. Qed.
  Lemma both_unit_l : forall x, both (Some (Some true)) x = x.
  Proof. intros x. now rewrite both_comm, both_unit. Qed.
  Section Meaning.
    Context (sv : server) (has : path -> str -> bool) (total : str -> bool -> list shown -> literal) (db : database).
    Notation test := (test sv has total db).
    Lemma test_and_then : forall sc t u, test sc (and_then t u) = both (test sc t) (test sc u).
    Proof.
      intros sc t u. induction t; try reflexivity. cbn [and_then SpecNestRows.test]. fold (test sc (and_then t2 u)). rewrite IHt2. exact (both_assoc (test sc t1) (test sc t2) (test sc u)).
    Qed.
    Lemma test_all : forall sc ts t, all_of ts = Some t -> test sc t = every (test sc) ts.
    Proof.
      intros sc ts. induction ts as [|u ts IH]; intros t H; [discriminate H|]. cbn [all_of] in H. cbn [every]. destruct (all_of ts) as [v|] eqn:A; injection H as <-.
      - rewrite test_and_then. f_equal. now apply IH.
      - destruct ts as [|w ts]; [cbn [every]; now rewrite both_unit|]. destruct (all_some (w :: ts)) as [x X]; [discriminate|]. congruence.
    Qed.
    Lemma every_snoc : forall A (f : A -> option t3) l x, every f (l ++ [x]) = both (every f l) (f x).
    Proof. intros A f l x. induction l as [|y l IH]; cbn [app every]; [now rewrite both_unit, both_unit_l|]. change (both (f y) (every f (l ++ [x])) = both (both (f y) (every f l)) (f x)). rewrite IH. apply both_assoc. Qed.
    Lemma every_in : forall A (f : A -> option t3) l x, In x l -> both (every f l) (f x) = every f l.
    Proof.
      intros A f l x I. induction l as [|y l IH]; [destruct I|]. change (every f (y :: l)) with (both (f y) (every f l)). destruct I as [->|I].
      - rewrite <- both_assoc, (both_comm (every f l)), both_assoc, both_idem. reflexivity.
      - now rewrite <- both_assoc, (IH I).
    Qed.
    Lemma mapO_some : forall A B (f : A -> option B) (g : A -> B) l, (forall x, f x = Some (g x)) -> mapO f l = Some (map g l).
    Proof. intros A B f g l H. induction l as [|x l IH]; [reflexivity|]. cbn [mapO map]. fold (mapO f). now rewrite H, IH. Qed.
    Lemma literals : forall sc ms, mapO (value sv has total db sc) (map NLiteral ms) = Some ms.
    Proof. intros sc ms. induction ms as [|m ms IH]; [reflexivity|]. cbn [map mapO SpecNestRows.value]. fold (@mapO nexpr literal). now rewrite IH. Qed.
    Lemma test_data : forall sc c rk v, content b rk v ->
      test sc (data_test (NColumn (seg c)) rk v) =
      (let? x := lookup has sc (seg c) in Some (asked_one b (compare sv) (cell sv (fun _ => x)) (VCond KWhere (VStr c) rk v))).
    Proof.
      intros sc c rk v C.
      assert (CMP : forall o, operator_of rk = Some o -> datum b v -> test sc (data_test (NColumn (seg c)) rk v) =
        (let? x := lookup has sc (seg c) in Some (asked_one b (compare sv) (cell sv (fun _ => x)) (VCond KWhere (VStr c) rk v)))).
      { intros o O D. destruct (data_value v D) as [y [L _]].
        assert (Q : data_test (NColumn (seg c)) rk v = TCompare (NColumn (seg c)) o (NLiteral y)).
        { unfold data_test. rewrite O, L. destruct rk; try reflexivity; discriminate O. }
        rewrite Q. cbn [SpecNestRows.test SpecNestRows.value]. destruct (lookup has sc (seg c)) as [x|]; [|reflexivity]. f_equal.
        cbn [asked_one expr_of path_of option_map]. rewrite O. assert (OP : operand_of b KWhere v = Some (OLiteral y)) by (destruct v; try contradiction; cbn [operand_of]; now rewrite L).
        destruct rk; try discriminate O; rewrite OP; reflexivity. }
      destruct rk; try (eapply CMP; [reflexivity|exact C]); clear CMP; destruct C as [l [-> [NE F]]]; cbn [data_test asked_one expr_of path_of option_map].
      - unfold one_of. destruct (members b l) as [|m ms] eqn:M.
        + rewrite (none_nonempty l (members_none l F M) NE). cbn [list_test SpecNestRows.test SpecNestRows.value]. destruct (lookup has sc (seg c)) as [x|]; [|reflexivity].
          cbn. destruct x; reflexivity.
        + destruct (existsb is_None l); cbn [list_test SpecNestRows.test SpecNestRows.value]; rewrite ?literals; (destruct (lookup has sc (seg c)) as [x|]; [|reflexivity]); cbn [negate_if cell column_of]; apply f_equal.
          * destruct x; reflexivity.
          * cbn [andb]. destruct (member3 (compare sv) x (m :: ms)) as [[]|]; reflexivity.
      - unfold none_of. destruct (members b l) as [|m ms] eqn:M.
        + rewrite (none_nonempty l (members_none l F M) NE). cbn [not_list_test SpecNestRows.test SpecNestRows.value]. destruct (lookup has sc (seg c)) as [x|]; [|reflexivity].
          cbn. destruct x; reflexivity.
        + destruct (existsb is_None l); cbn [not_list_test SpecNestRows.test SpecNestRows.value]; rewrite ?literals; (destruct (lookup has sc (seg c)) as [x|]; [|reflexivity]); cbn [negate_if cell column_of]; apply f_equal.
          * destruct x; reflexivity.
          * cbn [andb negb]. destruct (not3 (member3 (compare sv) x (m :: ms))) as [[]|]; reflexivity.
    Qed.
  End Meaning.

  (** ** Adding a condition *)
  Definition tests sv has total db sc ts := every (test sv has total db sc) ts.
  Lemma s_add : forall ps ts x t, Forall2 scond ps ts -> scond x t ->
    exists ps' ts', append_unique (py_eq EB) ps x = Ok ps' /\ Forall2 scond ps' ts' /\ ts' <> [] /\
      forall sv has total db sc, tests sv has total db sc ts' = both (tests sv has total db sc ts) (test sv has total db sc t).
  Proof.
    intros ps ts x t F X.
    assert (A : exists z, anyM (fun p => py_eq EB p x) ps = Ok z /\ (z = true -> In t ts)).
    { induction F as [|p u ps ts P F IH]; cbn [anyM]; [exists false; split; [reflexivity|discriminate]|].
      destruct IH as [z [A B]]. destruct (scond_eq p x u t P X) as [z1 [A1 B1]]. unfold py_eq at 1. rewrite A1. destruct z1; cbn [ror].
      - exists true. split; [reflexivity|]. intros _. left. now apply B1.
      - exists z. split; [exact A|]. intros Z. right. now apply B. }
    destruct A as [z [A B]]. unfold append_unique. rewrite A. cbn [bind]. destruct z.
    - exists ps, ts. split; [reflexivity|]. split; [exact F|]. specialize (B eq_refl). split; [intros ->; destruct B|]. intros. symmetry. now apply every_in.
    - exists (ps ++ [x]), (ts ++ [t]). split; [reflexivity|]. split; [apply Forall2_app; [exact F|constructor; [exact X|constructor]]|].
      split; [destruct ts; discriminate|]. intros. apply every_snoc.
  Qed.
End Objects.
