(** Proofs about programs whose conditions are made with Q, Not, & and |: C71. *)
From Coq Require Import Lia Permutation Sorted.
From Verif Require Import Base BaseFacts NumFmt Value Backend Eq Render RenderFacts ParseArgs Build Queries History
  SpecLex SpecRef SpecLogic SpecConds SpecHistory SpecArgs SpecErrors SpecWhole SpecSql SpecServer SpecProgram SpecProgramQ
  PfArgs PfErrors PfAccept PfHistories PfDedupe PfSqlExec PfServer PfProgram PfJoin.
Open Scope N_scope.

(** ** Three-valued conjunction *)
Lemma and3_assoc : forall x y z, and3 x (and3 y z) = and3 (and3 x y) z.
Proof. intros [[]|] [[]|] [[]|]; reflexivity. Qed.
Lemma and3_comm : forall x y, and3 x y = and3 y x.
Proof. intros [[]|] [[]|]; reflexivity. Qed.
Lemma and3_idem : forall x, and3 x x = x.
Proof. intros [[]|]; reflexivity. Qed.
Lemma and3_unit : forall x, and3 x (Some true) = x.
Proof. intros [[]|]; reflexivity. Qed.
Lemma and3_unit_l : forall x, and3 (Some true) x = x.
Proof. intros [[]|]; reflexivity. Qed.

Section Objects.
  Context (b : backend) (E : env).
  Let EB := with_be E b.
  Let W := pure_world EB.

  Inductive qcond : val -> Prop :=
  | qc_one : forall x, where_cond b x -> qcond x
  | qc_q : forall ps, ps <> [] -> Forall qcond ps -> qcond (VConds ps)
  | qc_bin : forall o x y, qcond x -> qcond y -> qcond (VCoC o x y)
  | qc_not : forall ps, ps <> [] -> Forall qcond ps -> qcond (VNot ps).
  Definition qcond_ind' (P : val -> Prop) (H1 : forall x, where_cond b x -> P x)
    (Hq : forall ps, ps <> [] -> Forall qcond ps -> Forall P ps -> P (VConds ps))
    (Hb : forall o x y, qcond x -> qcond y -> P x -> P y -> P (VCoC o x y))
    (Hn : forall ps, ps <> [] -> Forall qcond ps -> Forall P ps -> P (VNot ps)) : forall x, qcond x -> P x :=
    fix rec x (H : qcond x) {struct H} : P x :=
    let go := fix go ps (F : Forall qcond ps) {struct F} : Forall P ps :=
      match F in Forall _ l return Forall P l with
      | Forall_nil _ => Forall_nil P
      | Forall_cons y Hy F' => Forall_cons y (rec y Hy) (go _ F')
      end in
    match H in qcond x return P x with
    | qc_one x X => H1 x X
    | qc_q ps N F => Hq ps N F (go ps F)
    | qc_bin o x y X Y => Hb o x y X Y (rec x X) (rec y Y)
    | qc_not ps N F => Hn ps N F (go ps F)
    end.
  Lemma qcond_ok : forall x, qcond x -> cond_ok b x.
  Proof.
    apply qcond_ind'; intros.
    - now apply where_cond_ok.
    - now apply co_q.
    - now apply co_bin.
    - now apply co_not.
  Qed.
  Lemma qcond_sql : forall x, qcond x -> is_sql x = true.
  Proof. intros x [y Y| | |]; try reflexivity. destruct Y as [c [rk [v [-> _]]]]. reflexivity. Qed.
  (** Equal texts say the same. *)
  Lemma same_text : forall x y t, qcond x -> qcond y -> text EB x = Ok t -> text EB y = Ok t ->
    forall cmp value, asked b cmp value x = asked b cmp value y.
  Proof.
    intros x y t X Y TX TY cmp value.
    destruct (condition_truth EB x (qcond_ok x X)) as [t1 [e1 [A1 [B1 C1]]]].
    destruct (condition_truth EB y (qcond_ok y Y)) as [t2 [e2 [A2 [B2 C2]]]].
    assert (t1 = t) by congruence. assert (t2 = t) by congruence. subst t1 t2.
    rewrite B1 in B2. injection B2 as <-. exact (eq_trans (eq_sym (C1 cmp value)) (C2 cmp value)).
  Qed.
  Lemma q_text : forall x, qcond x -> exists t, text EB x = Ok t.
  Proof. intros x X. destruct (condition_truth EB x (qcond_ok x X)) as [t [_ [T _]]]. eauto. Qed.
  Lemma q_textual : forall x y, qcond x -> qcond y -> textual_eq x = true ->
    exists z, pyeq (text EB) x y = Ok z /\ (z = true -> forall cmp value, asked b cmp value x = asked b cmp value y).
  Proof.
    intros x y X Y T. destruct (q_text x X) as [t TX], (q_text y Y) as [u TY].
    assert (Q : pyeq (text EB) x y = Ok (seqb t u)).
    { assert (S := qcond_sql y Y). destruct x; try discriminate T; cbn [pyeq]; rewrite T; destruct y; try discriminate S; cbn [is_sql]; rewrite TX, TY; reflexivity. }
    exists (seqb t u). split; [exact Q|]. intros Z. apply seqb_eq in Z. subst u. now apply (same_text x y t).
  Qed.
  Lemma asked_where : forall x cmp value, where_cond b x -> asked b cmp value x = asked_one b cmp value x.
  Proof. intros x cmp value [c [rk [v [-> _]]]]. reflexivity. Qed.
  Lemma asked_conds : forall ps cmp value, asked b cmp value (VConds ps) = asked_all b cmp value ps.
  Proof. reflexivity. Qed.
  Lemma asked_not : forall ps cmp value, asked b cmp value (VNot ps) = not3 (asked_all b cmp value ps).
  Proof. reflexivity. Qed.
  (** Python's == on such conditions does not raise, and equal ones say the same. *)
  Lemma q_eq : forall x, qcond x -> forall y, qcond y ->
    exists z, pyeq (text EB) x y = Ok z /\ (z = true -> forall cmp value, asked b cmp value x = asked b cmp value y).
  Proof.
    refine (qcond_ind' _ _ _ _ _).
    - intros x X y Y. destruct Y as [y Y|ps|o u v|ps].
      + destruct (cond_total b (text EB) x y X Y) as [z Z]. exists z. split; [exact Z|]. intros -> cmp value.
        rewrite !asked_where by assumption. now apply (cond_same b (text EB)).
      + destruct X as [c [rk [v [-> _]]]]. exists false. split; [reflexivity|discriminate].
      + destruct X as [c [rk [w [-> _]]]]. exists false. split; [reflexivity|discriminate].
      + destruct X as [c [rk [v [-> _]]]]. exists false. split; [reflexivity|discriminate].
    - intros ps N F IH y Y. destruct Y as [y Y|qs NQ FQ|o u v|qs].
      + destruct Y as [c [rk [v [-> _]]]]. exists false. split; [reflexivity|discriminate].
      + cbn [pyeq textual_eq]. unfold list_eq. destruct (Nat.eqb (List.length ps) (List.length qs)) eqn:L; [|exists false; split; [reflexivity|discriminate]].
        apply Nat.eqb_eq in L. clear N NQ F.
        assert (G : forall ps, Forall (fun x => forall y, qcond y -> exists z, pyeq (text EB) x y = Ok z /\ (z = true -> forall cmp value, asked b cmp value x = asked b cmp value y)) ps ->
          forall qs, Forall qcond qs -> List.length ps = List.length qs ->
          exists z, all2 (pyeq (text EB)) ps qs = Ok z /\ (z = true -> forall cmp value, asked_all b cmp value ps = asked_all b cmp value qs)).
        { clear. induction 1 as [|p ps P F IH]; intros [|q qs] Q L; try discriminate L; [exists true; split; [reflexivity|reflexivity]|].
          inversion Q as [|? ? Q1 Q2]; subst. injection L as L. destruct (P q Q1) as [z1 [A1 B1]], (IH qs Q2 L) as [z2 [A2 B2]].
          cbn [all2]. rewrite A1, A2. destruct z1; cbn [rand]; [|exists false; split; [reflexivity|discriminate]].
          exists z2. split; [reflexivity|]. intros Z cmp value. unfold asked_all. cbn [fold_right].
          fold (asked_all b cmp value ps). fold (asked_all b cmp value qs). rewrite (B1 eq_refl), (B2 Z). reflexivity. }
        destruct (G ps IH qs FQ L) as [z [A B]]. exists z. split; [exact A|exact B].
      + exists false. split; [reflexivity|discriminate].
      + exists false. split; [reflexivity|discriminate].
    - intros o x y X Y _ _ z Z. apply q_textual; [now apply qc_bin|exact Z|reflexivity].
    - intros ps N F _ y Y. apply q_textual; [now apply qc_not|exact Y|reflexivity].
  Qed.

  (** ** Adding a condition *)
  Lemma all_snoc : forall ps x cmp value, asked_all b cmp value (ps ++ [x]) = and3 (asked_all b cmp value ps) (asked b cmp value x).
  Proof.
    intros ps x cmp value. induction ps as [|p ps IH]; unfold asked_all; cbn [app fold_right].
    - now rewrite and3_unit, and3_unit_l.
    - fold (asked_all b cmp value (ps ++ [x])). rewrite IH. apply and3_assoc.
  Qed.
  Lemma all_in : forall ps x cmp value, In x ps -> and3 (asked_all b cmp value ps) (asked b cmp value x) = asked_all b cmp value ps.
  Proof.
    intros ps x cmp value I. induction ps as [|p ps IH]; [destruct I|]. unfold asked_all. cbn [fold_right]. fold (asked_all b cmp value ps).
    destruct I as [->|I].
    - rewrite <- and3_assoc, (and3_comm (asked_all b cmp value ps)), and3_assoc, and3_idem. reflexivity.
    - rewrite <- and3_assoc, (IH I). reflexivity.
  Qed.
  Lemma q_add : forall ps x, Forall qcond ps -> qcond x ->
    exists ps', append_unique (py_eq EB) ps x = Ok ps' /\ Forall qcond ps' /\ ps' <> [] /\
      forall cmp value, asked_all b cmp value ps' = and3 (asked_all b cmp value ps) (asked b cmp value x).
  Proof.
    intros ps x F X.
    assert (A : exists z, anyM (fun p => py_eq EB p x) ps = Ok z /\ (z = true -> exists p, In p ps /\ forall cmp value, asked b cmp value p = asked b cmp value x)).
    { induction F as [|p ps P F IH]; cbn [anyM]; [exists false; split; [reflexivity|discriminate]|].
      destruct IH as [z [A B]]. destruct (q_eq p P x X) as [z1 [A1 B1]]. unfold py_eq at 1. rewrite A1. destruct z1; cbn [ror].
      - exists true. split; [reflexivity|]. intros _. exists p. split; [now left|exact (B1 eq_refl)].
      - exists z. split; [exact A|]. intros Z. destruct (B Z) as [p' [I Q]]. exists p'. split; [now right|exact Q]. }
    destruct A as [z [A B]]. unfold append_unique. rewrite A. cbn [bind]. destruct z.
    - destruct (B eq_refl) as [p [I Q]]. exists ps. split; [reflexivity|]. split; [exact F|]. split; [intros ->; destruct I|].
      intros cmp value. rewrite <- Q. symmetry. now apply all_in.
    - exists (ps ++ [x]). split; [reflexivity|]. split; [apply Forall_app; auto|]. split; [destruct ps; discriminate|]. intros. apply all_snoc.
  Qed.
  Lemma pairs_loop : forall pairs ps, Forall (where_pair b) pairs -> Forall qcond ps ->
    exists ps', foldE (fun s p => commit s (do x <- mk_condition KWhere (fst p) (snd p); append_unique (py_eq EB) s x)) ps pairs = (ps', Ok tt) /\
      Forall qcond ps' /\ (ps' = [] -> pairs = [] /\ ps = []) /\
      forall sv at_, asked_all b (compare sv) (val_at sv at_) ps' = and3 (asked_all b (compare sv) (val_at sv at_) ps) (fold_right and3 (Some true) (map (pair_says b sv at_) pairs)).
  Proof.
    induction pairs as [|[c v] pairs IH]; intros ps P F.
    - exists ps. split; [reflexivity|]. split; [exact F|]. split; [auto|]. intros sv at_. cbn [map fold_right]. now rewrite and3_unit.
    - inversion P as [|? ? [[c' [Hc G]] V] P']; subst. cbn [fst snd] in Hc, V. subst c.
      destruct (made_where b (VStr c', v)) as [x [M [X A]]]; [split; [exists c'; auto|exact V]|]. cbn [fst snd segments] in M, A. destruct (q_add ps x F (qc_one x X)) as [ps1 [A1 [F1 [N1 S1]]]].
      destruct (IH ps1 P' F1) as [ps' [R [F' [N' S']]]]. exists ps'. split; [|split; [exact F'|split]].
      + cbn [foldE fst snd]. rewrite M. cbn [bind]. rewrite A1. cbn [commit]. exact R.
      + intros Q. destruct (N' Q) as [_ Q']. contradiction.
      + intros sv at_. rewrite S', S1. cbn [map fold_right]. unfold pair_says at 2. cbn [fst snd]. rewrite <- A, (asked_where x _ _ X). symmetry. apply and3_assoc.
  Qed.
  Lemma pairs_called : forall a k pairs ps, where_call b a k pairs -> Forall qcond ps ->
    exists ps', conds_where W KWhere ps a k = (ps', Ok tt) /\ Forall qcond ps' /\ (ps' = [] -> pairs = [] /\ ps = []) /\
      forall sv at_, asked_all b (compare sv) (val_at sv at_) ps' = and3 (asked_all b (compare sv) (val_at sv at_) ps) (fold_right and3 (Some true) (map (pair_says b sv at_) pairs)).
  Proof.
    intros a k pairs ps [K [D [P G]]] F. rewrite (where_plainly _ _ _ _ _ D). destruct (parsed_pairs W a k K) as [A _].
    rewrite (A pairs P), (foldE_batches _ (fun s c0 v => commit s (do x <- mk_condition KWhere c0 v; append_unique (w_eq W) s x))). exact (pairs_loop pairs ps G F).
  Qed.
  (** Objects as arguments of where, Q and Not. *)
  Definition object_for (e : cexp) (x : val) : Prop :=
    qcond x /\ (is_Not e = false -> is_conds x = true) /\ forall sv at_, asked b (compare sv) (val_at sv at_) x = says b sv at_ e.
  Lemma objects_loop : forall l xs ps, Forall2 object_for l xs -> Forall qcond ps ->
    exists ps', foldE (fun s x => commit s (append_unique (py_eq EB) s x)) ps xs = (ps', Ok tt) /\ Forall qcond ps' /\ (l <> [] -> ps' <> []) /\
      forall sv at_, asked_all b (compare sv) (val_at sv at_) ps' = and3 (asked_all b (compare sv) (val_at sv at_) ps) (fold_right and3 (Some true) (map (says b sv at_) l)).
  Proof.
    intros l xs ps H. revert ps. induction H as [|e x l xs [X [_ S]] H IH]; intros ps F.
    - exists ps. split; [reflexivity|]. split; [exact F|]. split; [congruence|]. intros. cbn [map fold_right]. now rewrite and3_unit.
    - destruct (q_add ps x F X) as [ps1 [A1 [F1 [N1 S1]]]]. destruct (IH ps1 F1) as [ps' [R [F' [N' S']]]]. exists ps'. split; [|split; [exact F'|split]].
      + cbn [foldE]. rewrite A1. cbn [commit]. exact R.
      + intros _. destruct l; [|apply N'; discriminate]. inversion H; subst. cbn [foldE] in R. injection R as <-. exact N1.
      + intros sv at_. rewrite S', S1, S. cbn [map fold_right]. symmetry. apply and3_assoc.
  Qed.
  Lemma objects_called : forall l xs ps, together l -> Forall2 object_for l xs -> Forall qcond ps ->
    exists ps', conds_where W KWhere ps xs [] = (ps', Ok tt) /\ Forall qcond ps' /\ ps' <> [] /\
      forall sv at_, asked_all b (compare sv) (val_at sv at_) ps' = and3 (asked_all b (compare sv) (val_at sv at_) ps) (fold_right and3 (Some true) (map (says b sv at_) l)).
  Proof.
    intros l xs ps [N T] H F. destruct l as [|e [|e' l]].
    - congruence.
    - inversion H as [|? x ? xs' [X [_ S]] H']; subst. inversion H'; subst. exists (ps ++ [x]). unfold conds_where. rewrite (qcond_sql x X).
      split; [reflexivity|]. split; [apply Forall_app; auto|]. split; [destruct ps; discriminate|].
      intros sv at_. rewrite all_snoc, S. cbn [map fold_right]. now rewrite and3_unit.
    - destruct T as [T|T]; [discriminate T|].
      assert (C : forallb is_conds xs = true).
      { clear N F. revert T. induction H as [|u x m ys [_ [Q _]] H IH]; intros T; [reflexivity|]. cbn [forallb]. rewrite (Q (T u (or_introl eq_refl))). cbn [andb].
        apply IH. intros z Z. apply T. now right. }
      destruct (objects_loop _ _ ps H F) as [ps' [A [B [D G]]]]. exists ps'. split; [|split; [exact B|split; [apply D; discriminate|exact G]]].
      inversion H as [|? x ? xs' _ H']; subst. inversion H' as [|? x' ? xs'' _ _]; subst. unfold conds_where. rewrite C. exact A.
  Qed.

  (** ** Expressions *)
  Section Ind.
    Context (P : cexp -> Prop) (H1 : forall n a k ps, P (XPairs n a k ps)) (H2 : forall n l, Forall P l -> P (XAll n l)) (H3 : forall o x y, P x -> P y -> P (XBin o x y)).
    Fixpoint cexp_ind' (e : cexp) : P e :=
      match e with
      | XPairs n a k ps => H1 n a k ps
      | XAll n l => H2 n l ((fix go l := match l return Forall P l with [] => Forall_nil P | x :: r => Forall_cons x (cexp_ind' x) (go r) end) l)
      | XBin o x y => H3 o x y (cexp_ind' x) (cexp_ind' y)
      end.
  End Ind.
  Lemma sensible_all : forall l, (fix all l := match l with [] => True | x :: r => sensible b x /\ all r end) l -> Forall (sensible b) l.
  Proof. induction l as [|x l IH]; [constructor|]. intros [A B]. constructor; auto. Qed.
  Lemma evaluated : forall e, sensible b e -> exists x, evaluate W e = Ok x /\ object_for e x.
  Proof.
    induction e as [n a k ps|n l IH|o x y IHx IHy] using cexp_ind'; intros S.
    - destruct S as [S N]. destruct (pairs_called a k ps [] S (Forall_nil _)) as [ps' [A [F [N' T]]]].
      assert (NE : ps' <> []) by (intros Q; destruct (N' Q); contradiction).
      destruct n; cbn [evaluate]; unfold mk_Not, mk_Q; rewrite A; eexists; (split; [reflexivity|]).
      + split; [now apply qc_not|]. split; [discriminate|]. intros sv at_. rewrite asked_not, T. cbn [says negated_if]. f_equal. apply and3_unit_l.
      + split; [now apply qc_q|]. split; [reflexivity|]. intros sv at_. rewrite asked_conds, T. cbn [says negated_if]. apply and3_unit_l.
    - destruct S as [T S]. apply sensible_all in S.
      assert (V : exists xs, mapM (evaluate W) l = Ok xs /\ Forall2 object_for l xs).
      { clear T. induction IH as [|e l He IHl IH]; [exists []; split; [reflexivity|constructor]|]. inversion S as [|? ? S1 S2]; subst.
        destruct (He S1) as [x [X1 X2]], (IH S2) as [xs [Y1 Y2]]. exists (x :: xs). cbn [mapM]. rewrite X1, Y1. split; [reflexivity|now constructor]. }
      destruct V as [xs [V1 V2]]. destruct (objects_called l xs [] T V2 (Forall_nil _)) as [ps' [A [F [N' U]]]].
      cbn [evaluate]. rewrite V1. cbn [bind]. destruct n; unfold mk_Not, mk_Q; rewrite A; eexists; (split; [reflexivity|]).
      + split; [now apply qc_not|]. split; [discriminate|]. intros sv at_. rewrite asked_not, U. cbn [says negated_if]. f_equal. apply and3_unit_l.
      + split; [now apply qc_q|]. split; [reflexivity|]. intros sv at_. rewrite asked_conds, U. cbn [says negated_if]. apply and3_unit_l.
    - destruct S as [S1 [S2 [N1 N2]]]. destruct (IHx S1) as [u [U1 [U2 [U3 U4]]]], (IHy S2) as [v [V1 [V2 [V3 V4]]]].
      cbn [evaluate]. rewrite U1, V1. cbn [bind]. exists (VCoC o u v). split; [|split; [|split]].
      + specialize (U3 N1). specialize (V3 N2). destruct u; try discriminate U3; destruct v; try discriminate V3; reflexivity.
      + now apply qc_bin.
      + reflexivity.
      + intros sv at_. destruct o; cbn [says]; rewrite <- U4, <- V4; reflexivity.
  Qed.

  (** ** Calls of where *)
  Lemma items_app : forall sv l m rw, matches_items b sv (l ++ m) rw = matches_items b sv l rw && matches_items b sv m rw.
  Proof. intros. apply forallb_app. Qed.
  Lemma is_true_all : forall l, is_true (fold_right and3 (Some true) l) = forallb is_true l.
  Proof. induction l as [|x l IH]; [reflexivity|]. cbn [fold_right forallb]. now rewrite and3_true, IH. Qed.
  Lemma forallb_mapped : forall A B (f : B -> bool) (g : A -> B) l, forallb f (map g l) = forallb (fun x => f (g x)) l.
  Proof. intros. induction l as [|x l IH]; [reflexivity|]. cbn [map forallb]. now rewrite IH. Qed.
  Lemma items_effect_at : forall a k ts ps, where_asks E b a k ts -> Forall qcond ps ->
    exists ps', conds_where W KWhere ps a k = (ps', Ok tt) /\ Forall qcond ps' /\ (ps' = [] -> ts = [] /\ ps = []) /\
      forall sv at_, chosen b sv at_ ps' = chosen b sv at_ ps && items_hold b sv at_ ts.
  Proof.
    intros a k ts ps I F. inversion I as [? ? pairs C|l ? T S V]; subst.
    - destruct (pairs_called a k pairs ps C F) as [ps' [A [B [N G]]]]. exists ps'. split; [exact A|]. split; [exact B|]. split.
      + intros Q. destruct (N Q) as [-> ->]. auto.
      + intros sv at_. unfold chosen. rewrite G, and3_true, is_true_all. unfold items_hold. rewrite !forallb_mapped. reflexivity.
    - assert (H : Forall2 object_for l a).
      { clear -EB W S V. induction V as [|e x l a V VV IH]; [constructor|]. inversion S as [|? ? S1 S2]; subst. constructor; [|auto].
        destruct (evaluated e S1) as [y [Y1 Y2]]. fold EB in V. fold W in V. rewrite Y1 in V. injection V as ->. exact Y2. }
      destruct (objects_called l a ps T H F) as [ps' [A [B [N G]]]]. exists ps'. split; [exact A|]. split; [exact B|]. split; [contradiction|].
      intros sv at_. unfold chosen. rewrite G, and3_true, is_true_all. unfold items_hold. rewrite !forallb_mapped. reflexivity.
  Qed.
  Lemma items_effect : forall bo a k ts ps, bo = b /\ where_asks E b a k ts -> Forall qcond ps ->
    exists ps', conds_where (pure_world (with_be E bo)) KWhere ps a k = (ps', Ok tt) /\ Forall qcond ps' /\ (ps' = [] -> ts = [] /\ ps = []) /\
      forall sv rw, selected b sv ps' rw = selected b sv ps rw && matches_items b sv ts rw.
  Proof.
    intros bo a k ts ps [-> I] F. destruct (items_effect_at a k ts ps I F) as [ps' [A [B [N G]]]]. exists ps'. repeat (split; [assumption|]).
    intros sv rw. exact (G sv (in_row rw)).
  Qed.
End Objects.

(** ** Whole programs *)
Definition objects_call b E bo a k ts := bo = b /\ where_asks E b a k ts.
Definition objects_delete b E := delete_program b E _ (objects_call b E) (qcond b) (matches_items b) (items_app b) (fun _ _ => eq_refl) (items_effect b E) (qcond_ok b).
Definition objects_update b E := update_program b E _ (objects_call b E) (qcond b) (matches_items b) (items_app b) (fun _ _ => eq_refl) (items_effect b E) (qcond_ok b).
Definition objects_select b E := select_program b E _ (objects_call b E) (qcond b) (matches_items b) (items_app b) (fun _ _ => eq_refl) (items_effect b E) (qcond_ok b).
Definition objects_select_fine b E := select_program_fine b E _ (objects_call b E) (qcond b) (matches_items b) (items_app b) (fun _ _ => eq_refl) (items_effect b E) (qcond_ok b).
Lemma under_one : forall A B (b : backend) (P : A -> B -> Prop) l m, Forall2 P l m -> Forall2 (fun bo g => fst bo = b /\ P (snd bo) g) (map (pair b) l) m.
Proof. intros A B b P l m H. induction H; [constructor|]. cbn [map]. constructor; [split; [reflexivity|assumption]|assumption]. Qed.
Lemma two_impl : forall A B (P Q : A -> B -> Prop) l m, (forall x y, P x y -> Q x y) -> Forall2 P l m -> Forall2 Q l m.
Proof. intros A B P Q l m H F. induction F; constructor; auto. Qed.
Lemma under_snd : forall A (b : backend) (l : list A), map snd (map (pair b) l) = l.
Proof. intros. rewrite map_map. apply map_id. Qed.

Lemma delete_objects : forall E b sv db t H given, good_name (quote_of b) t ->
  Forall2 (delete_call (where_asks E b)) H given ->
  List.concat given <> [] \/ delete_confirmed H ->
  let h := program E (map (pair b) (DFrom [VStr t] [] :: H)) in
  let q := calls del_step empty_delete h in
  all_succeed del_step empty_delete h /\
  exists s st db', text (with_be E b) (VDelete q) = Ok s /\ understood (dialect_of b) s = Some st /\ execute sv st db = Some db' /\
    db' (name_segments t) = filter (fun r => negb (matches_items b sv (List.concat given) r)) (db (name_segments t)) /\
    (forall p, p <> name_segments t -> db' p = db p).
Proof.
  intros E b sv db t H given G F C. cbn [map]. apply (objects_delete b E sv db b t (map (pair b) H) given G).
  - apply (under_one _ _ b) in F. eapply two_impl; [|exact F]. clear. intros [bo op] ps [Q X]. cbn [fst snd] in *. destruct op; try exact X. exact (Logic.conj Q X).
  - rewrite under_snd. exact C.
Qed.
Lemma update_objects : forall E b sv db t H given, good_name (quote_of b) t ->
  Forall2 (update_call b (where_asks E b)) H given ->
  let sets := List.concat (map fst given) in let conds := List.concat (map snd given) in
  sets <> [] -> none_returns (stores b sets) -> conds <> [] \/ update_confirmed H ->
  let h := program E (map (pair b) (UTable (VStr t) :: H)) in
  let q := calls upd_step empty_update h in
  all_succeed upd_step empty_update h /\
  exists s st db', text (with_be E b) (VUpdate q) = Ok s /\ understood (dialect_of b) s = Some st /\ execute sv st db = Some db' /\
    Forall2 (fun old new => forall c, new c =
      if matches_items b sv conds old
      then match last_for c (stores b sets) with Some l => l | None => old c end
      else old c) (db (name_segments t)) (db' (name_segments t)) /\
    (forall p, p <> name_segments t -> db' p = db p).
Proof.
  intros E b sv db t H given G F sets conds NS NR C. cbn [map]. apply (objects_update b E sv db b t (map (pair b) H) given G); auto.
  - apply (under_one _ _ b) in F. eapply two_impl; [|exact F]. clear. intros [bo op] g [Q X]. cbn [fst snd] in *.
    destruct op; try exact X. destruct X as [X1 X2]. exact (Logic.conj X1 (Logic.conj Q X2)).
  - rewrite under_snd. exact C.
Qed.
Lemma select_objects_fine : forall E b sv db t H given, good_name (quote_of b) t ->
  Forall2 (select_call b (where_asks E b) t (supper E)) H given ->
  In (SFrom [VStr t] []) H -> bounded (wanted_limit H) -> bounded (wanted_offset H) ->
  (forall c a k v, In (c, VStr a) (flat_map ab_columns given) -> In (VStr k, v) (flat_map ab_order given) -> name_segments a <> name_segments k) ->
  let h := program E (map (pair b) H) in
  let q := calls sel_step empty_select h in
  all_succeed sel_step empty_select h /\ (select_fine b q /\ first_occurrences (flat_map ab_columns given) (s_cols q)) /\
  exists s st cols order, text (with_be E b) (VSelect q) = Ok s /\ understood (dialect_of b) s = Some st /\
    first_occurrences (flat_map ab_columns given) cols /\ SpecLists.ordered_list (supper E) (flat_map ab_order given) order /\
    forall le out, answers sv le db st out <->
      program_answers le db (name_segments t) (columns_asked cols) (matches_items b sv (flat_map ab_where given)) order
        (wanted_limit H) (wanted_offset H) out.
Proof.
  intros E b sv db t H given G F I BL BO NA.
  pose proof (objects_select_fine b E sv db t (map (pair b) H) given G) as R. rewrite under_snd in R. apply R; auto.
  apply (under_one _ _ b) in F. eapply two_impl; [|exact F]. clear. intros [bo op] g [Q X]. cbn [fst snd] in *.
  destruct op; try exact X. destruct X as [X1 X2]. exact (Logic.conj (Logic.conj Q X1) X2).
Qed.
Lemma select_objects : forall E b sv db t H given, good_name (quote_of b) t ->
  Forall2 (select_call b (where_asks E b) t (supper E)) H given ->
  In (SFrom [VStr t] []) H -> bounded (wanted_limit H) -> bounded (wanted_offset H) ->
  (forall c a k v, In (c, VStr a) (flat_map ab_columns given) -> In (VStr k, v) (flat_map ab_order given) -> name_segments a <> name_segments k) ->
  let h := program E (map (pair b) H) in
  let q := calls sel_step empty_select h in
  all_succeed sel_step empty_select h /\
  exists s st cols order, text (with_be E b) (VSelect q) = Ok s /\ understood (dialect_of b) s = Some st /\
    first_occurrences (flat_map ab_columns given) cols /\ SpecLists.ordered_list (supper E) (flat_map ab_order given) order /\
    forall le out, answers sv le db st out <->
      program_answers le db (name_segments t) (columns_asked cols) (matches_items b sv (flat_map ab_where given)) order
        (wanted_limit H) (wanted_offset H) out.
Proof.
  intros E b sv db t H given G F I BL BO NA. destruct (select_objects_fine E b sv db t H given G F I BL BO NA) as [A [_ X]]. exact (Logic.conj A X).
Qed.
Lemma expression_evaluates : forall E b e, sensible b e -> exists x, evaluate (pure_world (with_be E b)) e = Ok x.
Proof. intros E b e S. destruct (evaluated b E e S) as [x [X _]]. eauto. Qed.
