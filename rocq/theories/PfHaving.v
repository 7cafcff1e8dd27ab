(** Proofs about select programs with groups whose HAVING is made by Q, Not, & and |: C95. *)
From Coq Require Import Lia Permutation Sorted.
From Verif Require Import Base BaseFacts NumFmt Value Backend Eq Render RenderFacts ParseArgs Build Queries History
  SpecLex SpecRef SpecLogic SpecConds SpecHistory SpecArgs SpecErrors SpecWhole SpecSql SpecServer SpecProgram SpecProgramQ SpecJoin SpecGroup SpecDistinct SpecGroupAll SpecHaving
  PfArgs PfErrors PfAccept PfHistories PfDedupe PfLiterals PfSqlExec PfServer PfProgram PfJoin PfProgramQ PfDistinct PfObjects PfGroup PfGroupAll.
Open Scope N_scope.

Section Objects.
  Context (b : backend) (E : env).
  Let EB := with_be E b.
  Let W := pure_world EB.

  Inductive gcond : val -> Prop :=
  | gc_one : forall x, having_cond b x -> gcond x
  | gc_q : forall ps, ps <> [] -> Forall gcond ps -> gcond (VConds ps)
  | gc_bin : forall o x y, gcond x -> gcond y -> gcond (VCoC o x y)
  | gc_not : forall ps, ps <> [] -> Forall gcond ps -> gcond (VNot ps).
  Definition gcond_ind' (P : val -> Prop) (H1 : forall x, having_cond b x -> P x)
    (Hq : forall ps, ps <> [] -> Forall gcond ps -> Forall P ps -> P (VConds ps))
    (Hb : forall o x y, gcond x -> gcond y -> P x -> P y -> P (VCoC o x y))
    (Hn : forall ps, ps <> [] -> Forall gcond ps -> Forall P ps -> P (VNot ps)) : forall x, gcond x -> P x :=
    fix rec x (H : gcond x) {struct H} : P x :=
    let go := fix go ps (F : Forall gcond ps) {struct F} : Forall P ps :=
      match F in Forall _ l return Forall P l with
      | Forall_nil _ => Forall_nil P
      | Forall_cons y Hy F' => Forall_cons y (rec y Hy) (go _ F')
      end in
    match H in gcond x return P x with
    | gc_one x X => H1 x X
    | gc_q ps N F => Hq ps N F (go ps F)
    | gc_bin o x y X Y => Hb o x y X Y (rec x X) (rec y Y)
    | gc_not ps N F => Hn ps N F (go ps F)
    end.
  Lemma gcond_ok : forall x, gcond x -> cond_ok b x.
  Proof.
    apply gcond_ind'; intros.
    - now apply having_cond_ok.
    - now apply co_q.
    - now apply co_bin.
    - now apply co_not.
  Qed.
  Lemma gcond_sql : forall x, gcond x -> is_sql x = true.
  Proof. intros x [y Y| | |]; try reflexivity. destruct Y as [c [rk [v [-> _]]]]. reflexivity. Qed.
  (** Equal texts say the same. *)
  Lemma g_same_text : forall x y t, gcond x -> gcond y -> text EB x = Ok t -> text EB y = Ok t ->
    forall cmp value, asked b cmp value x = asked b cmp value y.
  Proof.
    intros x y t X Y TX TY cmp value.
    destruct (condition_truth EB x (gcond_ok x X)) as [t1 [e1 [A1 [B1 C1]]]].
    destruct (condition_truth EB y (gcond_ok y Y)) as [t2 [e2 [A2 [B2 C2]]]].
    assert (t1 = t) by congruence. assert (t2 = t) by congruence. subst t1 t2.
    rewrite B1 in B2. injection B2 as <-. exact (eq_trans (eq_sym (C1 cmp value)) (C2 cmp value)).
  Qed.
  Lemma g_text : forall x, gcond x -> exists t, text EB x = Ok t.
  Proof. intros x X. destruct (condition_truth EB x (gcond_ok x X)) as [t [_ [T _]]]. eauto. Qed.
  Lemma g_textual : forall x y, gcond x -> gcond y -> textual_eq x = true ->
    exists z, pyeq (text EB) x y = Ok z /\ (z = true -> forall cmp value, asked b cmp value x = asked b cmp value y).
  Proof.
    intros x y X Y T. destruct (g_text x X) as [t TX], (g_text y Y) as [u TY].
    assert (Q : pyeq (text EB) x y = Ok (seqb t u)).
    { assert (S := gcond_sql y Y). destruct x; try discriminate T; cbn [pyeq]; rewrite T; destruct y; try discriminate S; cbn [is_sql]; rewrite TX, TY; reflexivity. }
    exists (seqb t u). split; [exact Q|]. intros Z. apply seqb_eq in Z. subst u. now apply (g_same_text x y t).
  Qed.
  (** Python's == on such conditions does not raise, and equal ones say the same. *)
  Lemma g_eq : forall x, gcond x -> forall y, gcond y ->
    exists z, pyeq (text EB) x y = Ok z /\ (z = true -> forall cmp value, asked b cmp value x = asked b cmp value y).
  Proof.
    refine (gcond_ind' _ _ _ _ _).
    - intros x X y Y. destruct Y as [y Y|ps|o u v|ps].
      + destruct (having_eq b EB x y X Y) as [z [Z1 Z2]]. exists z. split; [exact Z1|]. intros -> cmp value.
        rewrite !having_single by assumption. now apply Z2.
      + destruct X as [c [rk [v [-> _]]]]. exists false. split; [reflexivity|discriminate].
      + destruct X as [c [rk [w [-> _]]]]. exists false. split; [reflexivity|discriminate].
      + destruct X as [c [rk [v [-> _]]]]. exists false. split; [reflexivity|discriminate].
    - intros ps N F IH y Y. destruct Y as [y Y|qs NQ FQ|o u v|qs].
      + destruct Y as [c [rk [v [-> _]]]]. exists false. split; [reflexivity|discriminate].
      + cbn [pyeq textual_eq]. unfold list_eq. destruct (Nat.eqb (List.length ps) (List.length qs)) eqn:L; [|exists false; split; [reflexivity|discriminate]].
        apply Nat.eqb_eq in L. clear N NQ F.
        assert (G : forall ps, Forall (fun x => forall y, gcond y -> exists z, pyeq (text EB) x y = Ok z /\ (z = true -> forall cmp value, asked b cmp value x = asked b cmp value y)) ps ->
          forall qs, Forall gcond qs -> List.length ps = List.length qs ->
          exists z, all2 (pyeq (text EB)) ps qs = Ok z /\ (z = true -> forall cmp value, asked_all b cmp value ps = asked_all b cmp value qs)).
        { clear. induction 1 as [|p ps P F IH]; intros [|q qs] Q L; try discriminate L; [exists true; split; [reflexivity|reflexivity]|].
          inversion Q as [|? ? Q1 Q2]; subst. injection L as L. destruct (P q Q1) as [z1 [A1 B1]], (IH qs Q2 L) as [z2 [A2 B2]].
          cbn [all2]. rewrite A1, A2. destruct z1; cbn [rand]; [|exists false; split; [reflexivity|discriminate]].
          exists z2. split; [reflexivity|]. intros Z cmp value. unfold asked_all. cbn [fold_right].
          fold (asked_all b cmp value ps). fold (asked_all b cmp value qs). rewrite (B1 eq_refl), (B2 Z). reflexivity. }
        destruct (G ps IH qs FQ L) as [z [A B]]. exists z. split; [exact A|exact B].
      + exists false. split; [reflexivity|discriminate].
      + exists false. split; [reflexivity|discriminate].
    - intros o x y X Y _ _ z Z. apply g_textual; [now apply gc_bin|exact Z|reflexivity].
    - intros ps N F _ y Y. apply g_textual; [now apply gc_not|exact Y|reflexivity].
  Qed.

  (** ** Adding a condition *)
  Lemma g_add : forall ps x, Forall gcond ps -> gcond x ->
    exists ps', append_unique (py_eq EB) ps x = Ok ps' /\ Forall gcond ps' /\ ps' <> [] /\
      forall cmp value, asked_all b cmp value ps' = and3 (asked_all b cmp value ps) (asked b cmp value x).
  Proof.
    intros ps x F X.
    assert (A : exists z, anyM (fun p => py_eq EB p x) ps = Ok z /\ (z = true -> exists p, In p ps /\ forall cmp value, asked b cmp value p = asked b cmp value x)).
    { induction F as [|p ps P F IH]; cbn [anyM]; [exists false; split; [reflexivity|discriminate]|].
      destruct IH as [z [A B]]. destruct (g_eq p P x X) as [z1 [A1 B1]]. unfold py_eq at 1. rewrite A1. destruct z1; cbn [ror].
      - exists true. split; [reflexivity|]. intros _. exists p. split; [now left|exact (B1 eq_refl)].
      - exists z. split; [exact A|]. intros Z. destruct (B Z) as [p' [I Q]]. exists p'. split; [now right|exact Q]. }
    destruct A as [z [A B]]. unfold append_unique. rewrite A. cbn [bind]. destruct z.
    - destruct (B eq_refl) as [p [I Q]]. exists ps. split; [reflexivity|]. split; [exact F|]. split; [intros ->; destruct I|].
      intros cmp value. rewrite <- Q. symmetry. now apply all_in.
    - exists (ps ++ [x]). split; [reflexivity|]. split; [apply Forall_app; auto|]. split; [destruct ps; discriminate|]. intros. apply all_snoc.
  Qed.
  Lemma g_pairs_loop : forall pairs ps, Forall (fun p => item (fst p) /\ condition_value b (snd p)) pairs -> Forall gcond ps ->
    exists ps', foldE (fun s p => commit s (do x <- mk_condition KWhere (fst p) (snd p); append_unique (py_eq EB) s x)) ps pairs = (ps', Ok tt) /\
      Forall gcond ps' /\ (ps' = [] -> pairs = [] /\ ps = []) /\
      forall sv value, asked_all b (compare sv) value ps' = and3 (asked_all b (compare sv) value ps) (fold_right and3 (Some true) (map (group_pair_says b sv (item_of value)) pairs)).
  Proof.
    induction pairs as [|p pairs IH]; intros ps P F.
    - exists ps. split; [reflexivity|]. split; [exact F|]. split; [auto|]. intros sv value. cbn [map fold_right]. now rewrite and3_unit.
    - inversion P as [|? ? [I V] P']; subst.
      destruct (made_having b p I V) as [x [M [X A]]]. destruct (g_add ps x F (gc_one x X)) as [ps1 [A1 [F1 [N1 S1]]]].
      destruct (IH ps1 P' F1) as [ps' [R [F' [N' S']]]]. exists ps'. split; [|split; [exact F'|split]].
      + cbn [foldE fst snd]. rewrite M. cbn [bind]. rewrite A1. cbn [commit]. exact R.
      + intros Q. destruct (N' Q) as [_ Q']. contradiction.
      + intros sv value. rewrite S', S1. cbn [map fold_right]. unfold group_pair_says at 2. rewrite <- A, (having_single b x _ _ X). symmetry. apply and3_assoc.
  Qed.
  Lemma g_pairs_called : forall a k pairs ps, having_pairs b a k pairs -> Forall gcond ps ->
    exists ps', conds_where W KWhere ps a k = (ps', Ok tt) /\ Forall gcond ps' /\ (ps' = [] -> pairs = [] /\ ps = []) /\
      forall sv value, asked_all b (compare sv) value ps' = and3 (asked_all b (compare sv) value ps) (fold_right and3 (Some true) (map (group_pair_says b sv (item_of value)) pairs)).
  Proof.
    intros a k pairs ps [K [P G]] F. rewrite (having_plainly b _ _ _ _ _ _ P G). destruct (parsed_pairs W a k K) as [A _].
    rewrite (A pairs P), (foldE_batches _ (fun s c0 v => commit s (do x <- mk_condition KWhere c0 v; append_unique (w_eq W) s x))). exact (g_pairs_loop pairs ps G F).
  Qed.
  (** Objects as arguments of having, Q and Not. *)
  Definition group_object (e : cexp) (x : val) : Prop :=
    gcond x /\ (is_Not e = false -> is_conds x = true) /\ forall sv value, asked b (compare sv) value x = group_says b sv (item_of value) e.
  Lemma g_objects_loop : forall l xs ps, Forall2 group_object l xs -> Forall gcond ps ->
    exists ps', foldE (fun s x => commit s (append_unique (py_eq EB) s x)) ps xs = (ps', Ok tt) /\ Forall gcond ps' /\ (l <> [] -> ps' <> []) /\
      forall sv value, asked_all b (compare sv) value ps' = and3 (asked_all b (compare sv) value ps) (fold_right and3 (Some true) (map (group_says b sv (item_of value)) l)).
  Proof.
    intros l xs ps H. revert ps. induction H as [|e x l xs [X [_ S]] H IH]; intros ps F.
    - exists ps. split; [reflexivity|]. split; [exact F|]. split; [congruence|]. intros. cbn [map fold_right]. now rewrite and3_unit.
    - destruct (g_add ps x F X) as [ps1 [A1 [F1 [N1 S1]]]]. destruct (IH ps1 F1) as [ps' [R [F' [N' S']]]]. exists ps'. split; [|split; [exact F'|split]].
      + cbn [foldE]. rewrite A1. cbn [commit]. exact R.
      + intros _. destruct l; [|apply N'; discriminate]. inversion H; subst. cbn [foldE] in R. injection R as <-. exact N1.
      + intros sv value. rewrite S', S1, S. cbn [map fold_right]. symmetry. apply and3_assoc.
  Qed.
  Lemma g_objects_called : forall l xs ps, together l -> Forall2 group_object l xs -> Forall gcond ps ->
    exists ps', conds_where W KWhere ps xs [] = (ps', Ok tt) /\ Forall gcond ps' /\ ps' <> [] /\
      forall sv value, asked_all b (compare sv) value ps' = and3 (asked_all b (compare sv) value ps) (fold_right and3 (Some true) (map (group_says b sv (item_of value)) l)).
  Proof.
    intros l xs ps [N T] H F. destruct l as [|e [|e' l]].
    - congruence.
    - inversion H as [|? x ? xs' [X [_ S]] H']; subst. inversion H'; subst. exists (ps ++ [x]). unfold conds_where. rewrite (gcond_sql x X).
      split; [reflexivity|]. split; [apply Forall_app; auto|]. split; [destruct ps; discriminate|].
      intros sv value. rewrite all_snoc, S. cbn [map fold_right]. now rewrite and3_unit.
    - destruct T as [T|T]; [discriminate T|].
      assert (C : forallb is_conds xs = true).
      { clear N F. revert T. induction H as [|u x m ys [_ [Q _]] H IH]; intros T; [reflexivity|]. cbn [forallb]. rewrite (Q (T u (or_introl eq_refl))). cbn [andb].
        apply IH. intros z Z. apply T. now right. }
      destruct (g_objects_loop _ _ ps H F) as [ps' [A [B [D G]]]]. exists ps'. split; [|split; [exact B|split; [apply D; discriminate|exact G]]].
      inversion H as [|? x ? xs' _ H']; subst. inversion H' as [|? x' ? xs'' _ _]; subst. unfold conds_where. rewrite C. exact A.
  Qed.

  (** ** Expressions *)
  Lemma group_sensible_all : forall l, (fix all l := match l with [] => True | x :: r => group_sensible b x /\ all r end) l -> Forall (group_sensible b) l.
  Proof. induction l as [|x l IH]; [constructor|]. intros [A B]. constructor; auto. Qed.
  Lemma group_evaluated : forall e, group_sensible b e -> exists x, evaluate W e = Ok x /\ group_object e x.
  Proof.
    induction e as [n a k ps|n l IH|o x y IHx IHy] using cexp_ind'; intros S.
    - destruct S as [S N]. destruct (g_pairs_called a k ps [] S (Forall_nil _)) as [ps' [A [F [N' T]]]].
      assert (NE : ps' <> []) by (intros Q; destruct (N' Q); contradiction).
      destruct n; cbn [evaluate]; unfold mk_Not, mk_Q; rewrite A; eexists; (split; [reflexivity|]).
      + split; [now apply gc_not|]. split; [discriminate|]. intros sv value. rewrite asked_not, T. cbn [group_says negated_if]. f_equal. apply and3_unit_l.
      + split; [now apply gc_q|]. split; [reflexivity|]. intros sv value. rewrite asked_conds, T. cbn [group_says negated_if]. apply and3_unit_l.
    - destruct S as [T S]. apply group_sensible_all in S.
      assert (V : exists xs, mapM (evaluate W) l = Ok xs /\ Forall2 group_object l xs).
      { clear T. induction IH as [|e l He IHl IH]; [exists []; split; [reflexivity|constructor]|]. inversion S as [|? ? S1 S2]; subst.
        destruct (He S1) as [x [X1 X2]], (IH S2) as [xs [Y1 Y2]]. exists (x :: xs). cbn [mapM]. rewrite X1, Y1. split; [reflexivity|now constructor]. }
      destruct V as [xs [V1 V2]]. destruct (g_objects_called l xs [] T V2 (Forall_nil _)) as [ps' [A [F [N' U]]]].
      cbn [evaluate]. rewrite V1. cbn [bind]. destruct n; unfold mk_Not, mk_Q; rewrite A; eexists; (split; [reflexivity|]).
      + split; [now apply gc_not|]. split; [discriminate|]. intros sv value. rewrite asked_not, U. cbn [group_says negated_if]. f_equal. apply and3_unit_l.
      + split; [now apply gc_q|]. split; [reflexivity|]. intros sv value. rewrite asked_conds, U. cbn [group_says negated_if]. apply and3_unit_l.
    - destruct S as [S1 [S2 [N1 N2]]]. destruct (IHx S1) as [u [U1 [U2 [U3 U4]]]], (IHy S2) as [v [V1 [V2 [V3 V4]]]].
      cbn [evaluate]. rewrite U1, V1. cbn [bind]. exists (VCoC o u v). split; [|split; [|split]].
      + specialize (U3 N1). specialize (V3 N2). destruct u; try discriminate U3; destruct v; try discriminate V3; reflexivity.
      + now apply gc_bin.
      + reflexivity.
      + intros sv value. destruct o; cbn [group_says]; rewrite <- U4, <- V4; reflexivity.
  Qed.
  (** Only the columns and functions named count. *)
  Lemma pairs_agree : forall sv f g ps, (forall x, item x -> f x = g x) -> Forall (fun p => item (fst p) /\ condition_value b (snd p)) ps ->
    map (group_pair_says b sv f) ps = map (group_pair_says b sv g) ps.
  Proof. intros sv f g ps FG F. induction F as [|p ps [I _] F IH]; [reflexivity|]. cbn [map]. rewrite IH. unfold group_pair_says. now rewrite (FG _ I). Qed.
  Lemma says_agree : forall sv f g e, (forall x, item x -> f x = g x) -> group_sensible b e -> group_says b sv f e = group_says b sv g e.
  Proof.
    intros sv f g e FG. induction e as [n a k ps|n l IH|o x y IHx IHy] using cexp_ind'; intros S.
    - destruct S as [[_ [_ F]] _]. cbn [group_says]. now rewrite (pairs_agree sv f g ps FG F).
    - destruct S as [_ S]. apply group_sensible_all in S. cbn [group_says]. do 2 f_equal. induction IH as [|e l He IHl IH]; [reflexivity|]. inversion S; subst. cbn [map]. f_equal; auto.
    - destruct S as [S1 [S2 _]]. destruct o; cbn [group_says]; now rewrite IHx, IHy.
  Qed.
  Lemma items_agree : forall sv f g a k ts, (forall x, item x -> f x = g x) -> having_asks E b a k ts -> group_items_hold b sv f ts = group_items_hold b sv g ts.
  Proof.
    intros sv f g a k ts FG I. unfold group_items_hold. destruct I as [a k ps [_ [_ F]]|l a _ S _].
    - rewrite !forallb_mapped. induction F as [|p ps [I _] F IH]; [reflexivity|]. cbn [forallb]. rewrite IH. unfold group_pair_says. now rewrite (FG _ I).
    - rewrite !forallb_mapped. induction S as [|e l X S IH]; [reflexivity|]. cbn [forallb]. rewrite IH. now rewrite (says_agree sv f g e FG X).
  Qed.

  (** ** Calls of having *)
  Lemma group_items_effect : forall a k ts ps, having_asks E b a k ts -> Forall gcond ps ->
    exists ps', conds_where W KWhere ps a k = (ps', Ok tt) /\ Forall gcond ps' /\
      forall sv value, held b (compare sv) value ps' = held b (compare sv) value ps && group_items_hold b sv (item_of value) ts.
  Proof.
    intros a k ts ps I F. inversion I as [? ? pairs C|l ? T S V]; subst.
    - destruct (g_pairs_called a k pairs ps C F) as [ps' [A [B [N G]]]]. exists ps'. split; [exact A|]. split; [exact B|].
      intros sv value. unfold held. rewrite G, and3_true, is_true_all. unfold group_items_hold. rewrite !forallb_mapped. reflexivity.
    - assert (H : Forall2 group_object l a).
      { clear -EB W S V. induction V as [|e x l a V VV IH]; [constructor|]. inversion S as [|? ? S1 S2]; subst. constructor; [|auto].
        destruct (group_evaluated e S1) as [y [Y1 Y2]]. fold EB in V. fold W in V. rewrite Y1 in V. injection V as ->. exact Y2. }
      destruct (g_objects_called l a ps T H F) as [ps' [A [B [N G]]]]. exists ps'. split; [exact A|]. split; [exact B|].
      intros sv value. unfold held. rewrite G, and3_true, is_true_all. unfold group_items_hold. rewrite !forallb_mapped. reflexivity.
  Qed.
  Definition keeping (w : list val) (ts : list where_item) : Prop :=
    Forall gcond w /\ forall sv value, held b (compare sv) value w = group_items_hold b sv (item_of value) ts.
  Lemma keeping_nil : keeping [] [].
  Proof. split; [constructor|reflexivity]. Qed.
  Lemma keeping_adds : forall a k w ts us, having_asks E b a k us -> keeping w ts ->
    exists w', conds_where W KWhere w a k = (w', Ok tt) /\ keeping w' (ts ++ us).
  Proof.
    intros a k w ts us I [F S]. destruct (group_items_effect a k us w I F) as [w' [A [B D]]]. exists w'. split; [exact A|]. split; [exact B|].
    intros sv value. rewrite D, S. unfold group_items_hold. now rewrite forallb_app.
  Qed.

  (** ** Programs *)
  Definition sel_having (op : selop) : bool := match op with SHaving _ _ => true | _ => false end.
  Definition with_having (q : selq val) (w : list val) : selq val :=
    MkSel (s_opts q) (s_cols q) (s_tabs q) (s_where q) (s_group q) w (s_order q) (s_limit q) (s_out q) (s_forupd q).
  Lemma having_apart : forall W q w op, sel_having op = false -> sel_step W (with_having q w) op = (with_having (fst (sel_step W q op)) w, snd (sel_step W q op)).
  Proof.
    intros W0 q w op M. destruct op; try discriminate M; destruct q as [x1 x2 x3 x4 x5 x6 x7 x8 x9 x10];
      cbn [sel_step with_having s_opts s_cols s_tabs s_where s_group s_having s_order s_limit s_out s_forupd]; unfold lift1;
      try reflexivity; try (match goal with |- context [let (_, _) := ?e in _] => destruct e end; reflexivity).
  Qed.

  Let call_of := fun (bo : backend * selop) g => kept_call E b (fst bo) (snd bo) g.
  Lemma having_program : forall H given srcs, Forall2 call_of H given ->
    let cols := flat_map (fun g => as_columns (ag_join (fst (fst g)))) given in let order := flat_map (fun g => as_order (ag_join (fst (fst g)))) given in
    let group := flat_map (fun g => ag_group (fst (fst g))) given in
    tables_asked (flat_map (fun g => as_from (ag_join (fst (fst g)))) given) = Some srcs -> NoDup (flat_map names_of srcs) ->
    bounded (wanted_limit (map snd H)) -> bounded (wanted_offset (map snd H)) ->
    (forall c a k v, In (c, VStr a) cols -> In (VStr k, v) group -> name_segments a <> name_segments k) ->
    (distinct_asked (map snd H) = true -> forall k v, In (k, v) order -> exists c a, In (c, a) (columns_asked cols) /\ (c = k \/ a = k)) ->
    let h := program E H in
    let q := calls sel_step empty_select h in
    all_succeed sel_step empty_select h /\
    exists s st cols' order', text (with_be E b) (VSelect q) = Ok s /\ understood (dialect_of b) s = Some st /\
      first_occurrences cols cols' /\ SpecLists.ordered_list (supper E) order order' /\
      forall sv find le same total by_alias db out, mirrored sv -> (grouped_answers sv find le same total by_alias db st out <->
        groups_kept b sv find le same total by_alias db (distinct_asked (map snd H)) (columns_asked cols') srcs
          (fun c => items_hold b sv (find c) (flat_map (fun g => snd (fst g)) given)) group
          (fun value => group_items_hold b sv value (flat_map snd given)) order' (wanted_limit (map snd H)) (wanted_offset (map snd H)) out).
  Proof.
    intros H given srcs F cols order group TA ND BL BO NA SD h q.
    (* without having *)
    destruct (others_asked selop ((asks_groups * list where_item) * list where_item) sel_having call_of (asks_groups * list where_item) fst
      (fun c g => grouped_call E b (fst c) (snd c) g) H given) as [gv [FV GV]]; [|exact F|].
    { intros [bo op] x P M. unfold call_of in P. cbn [fst snd] in *. destruct P; [assumption|discriminate M]. }
    assert (NH : forall (Z : Type) (f : asks_groups * list where_item -> list Z), f (MkGroups nothing [] [], []) = [] ->
      flat_map f gv = flat_map (fun x => f (fst x)) given).
    { intros Z f N0. apply GV. intros [bo op] x P M. unfold call_of in P. cbn [fst snd] in *. destruct P as [op g P N|a k ts _ _]; [|exact N0].
      exfalso. destruct op; try discriminate M. now apply (N args kwds). }
    set (HV := filter (fun c => negb (sel_having (snd c))) H) in *.
    (* neither options nor where *)
    destruct (plain_calls b E HV gv FV) as [g0 [F0 G0]].
    pose proof (eq_trans (G0 _ (fun g => as_columns (ag_join g)) eq_refl) (NH _ (fun x => as_columns (ag_join (fst x))) eq_refl)) as Ec.
    pose proof (eq_trans (G0 _ (fun g => as_from (ag_join g)) eq_refl) (NH _ (fun x => as_from (ag_join (fst x))) eq_refl)) as Ef.
    pose proof (eq_trans (G0 _ (fun g => as_order (ag_join g)) eq_refl) (NH _ (fun x => as_order (ag_join (fst x))) eq_refl)) as Eo.
    pose proof (eq_trans (G0 _ ag_group eq_refl) (NH _ (fun x => ag_group (fst x)) eq_refl)) as Eg.
    cbn beta in Ec, Ef, Eo, Eg. fold cols in Ec. fold order in Eo. fold group in Eg. rewrite <- Ef in TA.
    set (H1 := filter (fun c => negb (sel_where (snd c))) HV) in *. set (H0 := filter (fun c => no_opt (snd c)) H1) in *.
    destruct (group_inv b E H0 g0 srcs F0 TA ND) as [A0 [[N1 N2] [T [_ [[C1 C2] [[O1 O2] [[G1 G2] _]]]]]]].
    unfold all_columns in C2. unfold all_order in O2. rewrite Ec in C2. rewrite Eo in O2. rewrite Eg in G2.
    unfold H0 in A0. rewrite program_filter in A0. destruct (options_succeed _ A0) as [A1 [opt0 QO]]. rewrite <- program_filter in QO. fold H0 in QO.
    destruct (apart_calls E _ _ _ sel_step empty_select with_where sel_where sel_apart eq_refl
      (fun (bo : backend * selop) g => grouped_call E b (fst bo) (snd bo) g) snd (holding b) (holding_nil b)) with (H := HV) (given := gv) as [A2 [w [QW HW]]]; auto.
    { intros bo op x P M. cbn [fst snd] in *. destruct P; [reflexivity|reflexivity|discriminate M]. }
    { intros bo op x q1 w ts P M HO. cbn [fst snd] in *. destruct P as [op g P1 P2|k v|a k us -> P1].
      - exfalso. destruct op; try discriminate M. now apply (P2 args kwds).
      - discriminate M.
      - destruct (holding_adds b E a k w ts us P1 HO) as [w' [Q1 Q2]]. exists w'. split; [|exact Q2].
        destruct q1 as [x1 x2 x3 x4 x5 x6 x7 x8 x9 x10]. cbn [sel_step lift1 with_where s_where]. rewrite Q1. reflexivity. }
    rewrite (NH _ snd eq_refl) in HW.
    destruct (apart_calls E _ _ _ sel_step empty_select with_having sel_having having_apart eq_refl call_of snd keeping keeping_nil) with (H := H) (given := given) as [A [w2 [QH HH]]]; auto.
    { intros bo op x P M. unfold call_of in P. cbn [fst snd] in *. destruct P; [reflexivity|discriminate M]. }
    { intros bo op x q1 w3 ts P M HO. unfold call_of in P. cbn [fst snd] in *. destruct P as [op g P1 P2|a k us -> P1].
      - exfalso. destruct op; try discriminate M. now apply (P2 args kwds).
      - destruct (keeping_adds a k w3 ts us P1 HO) as [w' [Q1 Q2]]. exists w'. split; [|exact Q2].
        destruct q1 as [x1 x2 x3 x4 x5 x6 x7 x8 x9 x10]. cbn [sel_step lift1 with_having s_having]. unfold W, EB in Q1. rewrite Q1. reflexivity. }
    fold h in A, QH. fold q in QH. split; [exact A|]. fold HV in QH. fold H1 in QW. rewrite QO in QW. set (q0 := calls sel_step empty_select (program E H0)) in *.
    rewrite QW in QH.
    destruct (given_items b E H0 g0 F0) as [PG _]. rewrite Eg in PG.
    assert (AG : forall sv f g, (forall x, item x -> f x = g x) -> group_items_hold b sv f (flat_map snd given) = group_items_hold b sv g (flat_map snd given)).
    { intros sv f g FG. clear -F FG. induction F as [|[bo op] x H given P F IH]; [reflexivity|]. unfold group_items_hold in *. cbn [flat_map]. rewrite !forallb_app. f_equal; [|exact IH].
      unfold call_of in P. cbn [fst snd] in P. destruct P as [op y P N|a k ts _ P]; [reflexivity|]. exact (items_agree sv f g a k ts FG P). }
    destruct (grouped_kept b E q cols order group (fun sv value => group_items_hold b sv value (flat_map snd given)) srcs
      (fun sv at_ => items_hold b sv at_ (flat_map (fun g => snd (fst g)) given)) (distinct_asked (map snd H)) (wanted_limit (map snd H)) (wanted_offset (map snd H)))
      as [s [st [cols' [order' [X1 [X2 [X3 [X4 [_ X6]]]]]]]]]; auto; try (rewrite QH; assumption).
    - rewrite QH. exact (holding_ok b w _ HW).
    - intros sv at_ _. rewrite QH. apply HW.
    - rewrite QH. destruct HH as [HH _]. eapply Forall_impl; [|exact HH]. apply gcond_ok.
    - intros sv value. rewrite QH. apply HH.
    - unfold q. rewrite limit_state. unfold h, program. rewrite map_map. reflexivity.
    - unfold q. rewrite !options_inv. unfold h, program. rewrite map_map. reflexivity.
    - exists s, st, cols', order'. auto.
  Qed.
End Objects.
Lemma group_expression : forall E b e, group_sensible b e -> exists x, evaluate (pure_world (with_be E b)) e = Ok x.
Proof. intros E b e S. destruct (group_evaluated b E e S) as [x [X _]]. eauto. Qed.
