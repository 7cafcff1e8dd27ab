(** Proofs about select programs with groups: C76. *)
From Coq Require Import Lia Permutation Sorted.
From Verif Require Import Base BaseFacts NumFmt Value Backend Eq Render RenderFacts ParseArgs Build Queries History
  SpecLex SpecRef SpecLogic SpecConds SpecHistory SpecArgs SpecErrors SpecWhole SpecSql SpecServer SpecProgram SpecJoin SpecGroup SpecDistinct SpecGroupAll SpecHaving
  PfArgs PfErrors PfAccept PfHistories PfDedupe PfLiterals PfSql PfSqlParse PfSqlCond PfSqlExec PfServer PfProgram PfJoin PfDistinct.
Open Scope N_scope.

(** ** Columns and functions of columns: == is equality *)
Lemma simple_good : forall b s, simple_name s -> good_name (quote_of b) s.
Proof. intros b s [A [B _]]. destruct b; assumption. Qed.
Lemma agg_text : forall E k d s, tidy_name s -> exists t, text E (VAgg k d (VStr s)) = Ok t /\ In 40 t /\
  forall k' d' s', tidy_name s' -> text E (VAgg k' d' (VStr s')) = Ok t -> k' = k /\ d' = d /\ s' = s.
Proof.
  intros E k d s T.
  assert (X : forall k d s, tidy_name s -> exists t, text E (VAgg k d (VStr s)) = Ok t /\ In 40 t).
  { clear. intros k d s _. rewrite text_unfold. cbn [str_body].
    assert (A : exists u, agg_expr E (text E) k (VStr s) = Ok u) by (unfold agg_expr; destruct k; try (eexists; reflexivity); cbn [pyeq textual_eq bind]; destruct (seqb s (lit "*")); eexists; reflexivity).
    destruct A as [u ->]. cbn [bind]. eexists. split; [reflexivity|]. apply in_or_app. right. now left. }
  assert (R : forall k d s t, tidy_name s -> text E (VAgg k d (VStr s)) = Ok t ->
    lexemes (dialect_of (e_be E)) t = expr_lexemes (ECall (function_name k) d [name_segments s]) /\ expr_good (ECall (function_name k) d [name_segments s])).
  { clear. intros k d s t [S _] T. destruct (expr_tells E (VAgg k d (VStr s)) t) as [e [Ee [G [Q _]]]].
    - cbn [expr_ok name_ok]. now apply simple_good.
    - exact T.
    - cbn in Ee. injection Ee as <-. split; [|exact G]. now apply tells_lexemes. }
  destruct (X k d s T) as [t [Q I]]. exists t. split; [exact Q|]. split; [exact I|].
  intros k' d' s' T' Q'. destruct (R k d s t T Q) as [A1 A2], (R k' d' s' t T' Q') as [B1 B2]. rewrite A1 in B1.
  destruct (expr_reads _ A2) as [_ RA], (expr_reads _ B2) as [_ RB]. specialize (RA [] Logic.I). specialize (RB [] Logic.I).
  rewrite B1 in RA. rewrite RA in RB. injection RB as F D N.
  destruct T as [_ T], T' as [_ T']. split; [destruct k, k'; try reflexivity; discriminate F|]. split; [now symmetry|]. congruence.
Qed.
Lemma item_eq : forall E x y, item x -> item y -> (x = y /\ py_eq E x y = Ok true) \/ (x <> y /\ py_eq E x y = Ok false).
Proof.
  assert (F : forall s t, In 40 t -> ~ In 40 s -> seqb t s = false /\ seqb s t = false).
  { intros s t I N. split; (destruct (seqb _ _) eqn:Q; [|reflexivity]); apply seqb_eq in Q; congruence. }
  intros E x y X Y. unfold py_eq. destruct x; try contradiction; destruct y; try contradiction; cbn [pyeq textual_eq is_sql].
  - destruct (seqb s s0) eqn:Q; [left; apply seqb_eq in Q; subst; auto|right; split; [|reflexivity]]. intros Z. injection Z as ->. now rewrite seqb_refl in Q.
  - destruct y; try contradiction. destruct (agg_text E k distinct s0 Y) as [t [T [I _]]]. rewrite T. cbn [bind].
    right. split; [discriminate|]. destruct X as [_ [_ X]]. now rewrite (proj1 (F s t I X)).
  - destruct x; try contradiction. destruct (agg_text E k distinct s0 X) as [t [T [I _]]]. rewrite T. cbn [bind].
    right. split; [discriminate|]. destruct Y as [_ [_ Y]]. now rewrite (proj1 (F s t I Y)).
  - destruct x; try contradiction. destruct y; try contradiction.
    destruct (agg_text E k distinct s X) as [t [T [_ U]]]. destruct (agg_text E k0 distinct0 s0 Y) as [t' [T' _]]. rewrite T, T'. cbn [bind].
    destruct (seqb t t') eqn:Q.
    + apply seqb_eq in Q. subst t'. destruct (U _ _ _ Y T') as [-> [-> ->]]. now left.
    + right. split; [|reflexivity]. intros Z. injection Z as -> -> ->. rewrite T in T'. injection T' as <-. now rewrite seqb_refl in Q.
Qed.

(** ** Lists without repetition *)
Section Kept.
  Context {A : Type} (C : A -> Prop) (eq : A -> A -> res bool)
    (C_eq : forall x y, C x -> C y -> (x = y /\ eq x y = Ok true) \/ (x <> y /\ eq x y = Ok false)).
  Lemma any_item : forall out x, Forall C out -> C x -> (In x out /\ anyM (fun y => eq y x) out = Ok true) \/ (~ In x out /\ anyM (fun y => eq y x) out = Ok false).
  Proof.
    intros out x F X. induction F as [|y out Y F IH]; [right; split; [tauto|reflexivity]|]. cbn [anyM].
    destruct (C_eq y x Y X) as [[-> Q]|[N Q]]; rewrite Q; cbn [ror]; [left; split; [now left|reflexivity]|].
    destruct IH as [[I R]|[I R]]; rewrite R; [left; split; [now right|reflexivity]|right; split; [intros [Z|Z]; auto|reflexivity]].
  Qed.
  Lemma unique_loop : forall (mk : val -> val -> res A) (ps : list (val * val)) (xs : list A),
    Forall2 (fun p x => mk (fst p) (snd p) = Ok x /\ C x) ps xs ->
    forall l out, Forall C out -> first_occurrences l out ->
    exists out', foldE (fun s p => commit s (do x <- mk (fst p) (snd p); append_unique eq s x)) out ps = (out', Ok tt) /\
      Forall C out' /\ first_occurrences (l ++ xs) out'.
  Proof.
    intros mk ps xs F. induction F as [|p x ps xs [M X] F IH]; intros l out O L; [exists out; rewrite app_nil_r; auto|].
    cbn [foldE]. rewrite M. cbn [bind]. unfold append_unique. replace (l ++ x :: xs) with ((l ++ [x]) ++ xs) by (now rewrite <- app_assoc).
    destruct (any_item out x O X) as [[I R]|[I R]]; rewrite R; cbn [bind commit]; apply IH; auto.
    - apply fo_again; [exact L|]. now apply (PfLists.fo_in _ _ _ L).
    - apply Forall_app. auto.
    - apply fo_new; [exact L|]. now rewrite (PfLists.fo_in _ _ _ L).
  Qed.
End Kept.
Section Columns.
  Context (b : backend).
  Lemma column_item_eq : forall E p q, column_item b p -> column_item b q ->
    (p = q /\ pair_eq (py_eq E) p q = Ok true) \/ (p <> q /\ pair_eq (py_eq E) p q = Ok false).
  Proof.
    intros E [x a] [y c] [X A] [Y B]. cbn [fst snd] in *. cbn [pair_eq].
    destruct (item_eq E x y X Y) as [[-> Q]|[N Q]]; rewrite Q; [|right; split; [congruence|reflexivity]]. cbn [rand].
    destruct A as [-> |[u [-> _]]], B as [-> |[w [-> _]]]; unfold py_eq; cbn [pyeq textual_eq is_none]; try (right; split; [congruence|reflexivity]); [now left|].
    destruct (seqb u w) eqn:R; [left; apply seqb_eq in R; subst; auto|right; split; [|reflexivity]]. intros Z. injection Z as ->. now rewrite seqb_refl in R.
  Qed.
  Lemma column_item_made : forall p, column_item b p -> mk_column (fst p) (snd p) = Ok p.
  Proof.
    intros [x a] [X A]. cbn [fst snd] in *. destruct x; try contradiction; (destruct A as [-> |[u [-> _]]]; reflexivity).
  Qed.
  Lemma columns_effect : forall E a k ps l out, keys_ok a k -> alias_args a k ps -> Forall (column_item b) ps ->
    Forall (column_item b) out -> first_occurrences l out ->
    exists out', columns_add (pure_world E) out a k = (out', Ok tt) /\ Forall (column_item b) out' /\ first_occurrences (l ++ ps) out'.
  Proof.
    intros E a k ps l out K A P O L. unfold columns_add. destruct (parsed_names (pure_world E) a k K) as [X _]. rewrite (X ps A).
    rewrite (foldE_batches _ (fun s c v => commit s (do x <- mk_column c v; append_unique (pair_eq (py_eq E)) s x))).
    apply (unique_loop _ _ (column_item_eq E)); auto.
    clear -P. induction P as [|p ps P F IH]; constructor; auto using column_item_made.
  Qed.
End Columns.
Section Orders.
  Context (C : val -> Prop) (C_eq : forall E x y, C x -> C y -> (x = y /\ py_eq E x y = Ok true) \/ (x <> y /\ py_eq E x y = Ok false))
    (C_name : forall x, C x -> check_type [Value.TStr; TInt] x = true).
  Lemma key_found : forall E os c v, C c -> Forall (fun o => C (fst o)) os ->
    (~ In c (map fst os) /\ order_update (pure_world E) os c v = Ok None) \/
    (exists pre s post, os = pre ++ (c, s) :: post /\ ~ In c (map fst pre) /\
       order_update (pure_world E) os c v = (do d <- mk_sort E v; Ok (Some (pre ++ (c, d) :: post)))).
  Proof.
    intros E os c v Nc. induction os as [|[c' s] os IH]; intros F; [left; split; [tauto|reflexivity]|]. inversion F; subst. cbn [fst] in *.
    cbn [order_update]. change (w_eq (pure_world E) c' c) with (py_eq E c' c). change (w_env (pure_world E)) with E.
    destruct (C_eq E c' c) as [[-> Q]|[N Q]]; auto; rewrite Q.
    - right. exists [], s, os. split; [reflexivity|]. split; [tauto|reflexivity].
    - destruct (IH H2) as [[I R]|[pre [s' [post [-> [I R]]]]]]; rewrite R.
      + left. split; [intros [E1|E1]; auto|reflexivity].
      + right. exists ((c', s) :: pre), s', post. split; [reflexivity|]. split; [intros [E1|E1]; auto|].
        destruct (mk_sort E v); reflexivity.
  Qed.
  Lemma order_loop : forall E ps, Forall (fun p => C (fst p) /\ exists d, direction (supper E) (snd p) d) ps ->
    forall l out, Forall (fun o => C (fst o)) out -> SpecLists.ordered_list (supper E) l out ->
    exists out', foldE (fun s p => commit s (order_one (pure_world E) s (fst p) (snd p))) out ps = (out', Ok tt) /\
      Forall (fun o => C (fst o)) out' /\ SpecLists.ordered_list (supper E) (l ++ ps) out'.
  Proof.
    intros E ps F. induction F as [|[c v] ps [Cc [d D]] F IH]; intros l out O L; [exists out; rewrite app_nil_r; auto|].
    cbn [foldE fst snd] in *. destruct L as [L1 L2].
    assert (Q : mk_sort E v = Ok d).
    { destruct (PfLists.sort_dir E v) as [[d' [D' Q]]|[X _]]; [|exfalso; eapply X; eauto]. now rewrite (PfLists.direction_fun _ _ _ _ D D'). }
    replace (l ++ (c, v) :: ps) with ((l ++ [(c, v)]) ++ ps) by (now rewrite <- app_assoc).
    unfold order_one at 1. destruct (key_found E out c v Cc O) as [[I R]|[pre [s [post [-> [I R]]]]]]; rewrite R.
    - cbn [bind]. rewrite (C_name c Cc). cbn [negb pure_world w_env]. rewrite Q. cbn [bind commit]. apply IH.
      + apply Forall_app. split; [exact O|]. constructor; [exact Cc|constructor].
      + split.
        * rewrite !map_app. apply fo_new; [exact L1|]. now rewrite (PfLists.fo_in _ _ _ L1).
        * intros c' d' J. apply in_app_iff in J. destruct J as [J|[J|[]]].
          -- apply PfLists.last_dir_other; [|auto]. intros ->. apply I. apply in_map_iff. exists (c', d'). auto.
          -- injection J as <- <-. now apply PfLists.last_dir_new.
    - rewrite Q. cbn [bind commit]. pose proof (PfLists.fo_nodup _ _ _ L1) as ND.
      assert (M : map fst (pre ++ (c, d) :: post) = map fst (pre ++ (c, s) :: post)) by (rewrite !map_app; reflexivity).
      apply IH.
      + apply Forall_app in O. destruct O as [N1 N2]. inversion N2; subst. apply Forall_app. split; [exact N1|]. constructor; assumption.
      + split.
        * rewrite M, map_app. apply fo_again; [exact L1|]. cbn [map fst]. rewrite (PfLists.fo_in _ _ _ L1), map_app, in_app_iff. right. now left.
        * intros c' d' J. apply in_app_iff in J. rewrite map_app in ND. cbn [map fst] in ND.
          pose proof (NoDup_remove_2 _ _ _ ND) as ND'. rewrite in_app_iff in ND'. destruct J as [J|[J|J]].
          -- apply PfLists.last_dir_other; [|apply L2, in_or_app; now left]. intros ->. apply ND'. left. apply in_map_iff. exists (c', d'). auto.
          -- injection J as <- <-. now apply PfLists.last_dir_new.
          -- apply PfLists.last_dir_other; [|apply L2, in_or_app; right; now right]. intros ->. apply ND'. right. apply in_map_iff. exists (c', d'). auto.
  Qed.
  Lemma orders_effect : forall E a k ps l out, keys_ok a k -> alias_args a k ps ->
    Forall (fun p => C (fst p) /\ exists d, direction (supper E) (snd p) d) ps ->
    Forall (fun o => C (fst o)) out -> SpecLists.ordered_list (supper E) l out ->
    exists out', orders_add (pure_world E) out a k = (out', Ok tt) /\ Forall (fun o => C (fst o)) out' /\ SpecLists.ordered_list (supper E) (l ++ ps) out'.
  Proof.
    intros E a k ps l out K A P O L. unfold orders_add. destruct (parsed_names (pure_world E) a k K) as [X _]. rewrite (X ps A).
    change (exists out', foldE (fun s it => let (c, v) := nth2 it in commit s (order_one (pure_world E) s c v)) out (batches ps) = (out', Ok tt) /\
      Forall (fun o => C (fst o)) out' /\ SpecLists.ordered_list (supper E) (l ++ ps) out').
    rewrite (foldE_batches _ (fun s c v => commit s (order_one (pure_world E) s c v))). apply order_loop; assumption.
  Qed.
End Orders.
Definition name_key (x : val) : Prop := exists c, x = VStr c.
Lemma name_key_eq : forall E x y, name_key x -> name_key y -> (x = y /\ py_eq E x y = Ok true) \/ (x <> y /\ py_eq E x y = Ok false).
Proof.
  intros E x y [c ->] [d ->]. unfold py_eq. cbn [pyeq textual_eq].
  destruct (seqb c d) eqn:R; [left; apply seqb_eq in R; subst; auto|right; split; [|reflexivity]]. intros Z. injection Z as ->. now rewrite seqb_refl in R.
Qed.
Lemma name_key_name : forall x, name_key x -> check_type [Value.TStr; TInt] x = true.
Proof. intros x [c ->]. reflexivity. Qed.
Lemma item_name : forall x, item x -> check_type [Value.TStr; TInt] x = true.
Proof. intros x X. destruct x; try contradiction; reflexivity. Qed.

(** ** HAVING *)
Section Having.
  Context (b : backend).
  Definition having_cond (x : val) : Prop := exists c rk v, x = VCond KWhere c rk v /\ item c /\ content b rk v.
  Definition item_of (value : expr -> literal) (x : val) : literal := match expr_of x with Some e => value e | None => LNull end.
  Definition held (cmp : compop -> literal -> literal -> bool) (value : expr -> literal) (ps : list val) : bool := is_true (asked_all b cmp value ps).
  Lemma asked_of : forall cmp value c rk v, content b rk v -> asked_one b cmp value (VCond KWhere c rk v) =
    match expr_of c with Some e => asked_one b cmp (fun _ => value e) (VCond KWhere (VStr [97]) rk v) | None => None end.
  Proof.
    intros cmp value c rk v V. cbn [asked_one]. destruct (expr_of c) as [e|]; [|reflexivity]. cbn [expr_of path_of option_map].
    destruct rk; cbn [content] in V; try (destruct v as [| | |v|v| | | | | | | | | | | | | | | | | | | | | | | | | |]; try contradiction; try reflexivity; destruct v; try contradiction; reflexivity); destruct V as [l [-> _]]; reflexivity.
  Qed.
  Lemma having_eq : forall E x y, having_cond x -> having_cond y -> exists z, py_eq E x y = Ok z /\
    (z = true -> forall cmp value, asked_one b cmp value x = asked_one b cmp value y).
  Proof.
    intros E x y [c [rk [v [-> [I V]]]]] [c' [rk' [v' [-> [I' V']]]]]. unfold py_eq. cbn [pyeq textual_eq].
    destruct (item_eq E c c' I I') as [[-> Q]|[_ Q]]; unfold py_eq in Q; rewrite Q; cbn [rand]; [|exists false; split; [reflexivity|discriminate]].
    destruct (content_total b (text E) _ _ _ _ V V') as [z Z]. rewrite Z. destruct z; cbn [rand]; [|exists false; split; [reflexivity|discriminate]].
    exists (relk_eqb rk rk'). split; [reflexivity|]. intros RE cmp value.
    assert (rk' = rk) as -> by (destruct rk, rk'; try discriminate; reflexivity).
    (* same relation, same data *)
    assert (S : forall w, asked_one b cmp w (VCond KWhere (VStr [97]) rk v) = asked_one b cmp w (VCond KWhere (VStr [97]) rk v')).
    { intros w. apply (cond_same b (text E)).
      - exists [97], rk, v. split; [reflexivity|]. split; [|exact V]. split; [destruct b; cbn; intuition discriminate|discriminate].
      - exists [97], rk, v'. split; [reflexivity|]. split; [|exact V']. split; [destruct b; cbn; intuition discriminate|discriminate].
      - cbn [pyeq textual_eq]. rewrite seqb_refl, Z, RE. reflexivity. }
    rewrite !asked_of by assumption. destruct (expr_of c') as [e|]; [apply S|reflexivity].
  Qed.
  Lemma made_having : forall p, item (fst p) -> condition_value b (snd p) -> exists x, mk_condition KWhere (fst p) (snd p) = Ok x /\ having_cond x /\
    forall sv value, asked_one b (compare sv) value x = holds b sv (item_of value (fst p)) (snd p).
  Proof.
    intros [c v] I V. cbn [fst snd] in *.
    destruct (made_where b (VStr [97], v)) as [x [M [[c0 [rk [u [-> [_ X]]]]] A]]].
    { split; [|exact V]. exists [97]. split; [reflexivity|]. split; [destruct b; cbn; intuition discriminate|discriminate]. }
    cbn [fst snd] in M, A. exists (VCond KWhere c rk u).
    assert (T : check_type [Value.TStr] c = true) by (destruct c; try contradiction; reflexivity).
    assert (M' : c0 = [97] /\ mk_condition KWhere c v = Ok (VCond KWhere c rk u)).
    { unfold mk_condition in *. rewrite T. change (check_type [Value.TStr] (VStr [97])) with true in M. cbn [negb] in *.
      destruct (negb (check_type cond_value_types v)); [discriminate|]. destruct (match v with VRel _ _ => Ok v | _ => _ end) as [y|]; [|discriminate].
      cbn [bind] in *. destruct y; try discriminate. injection M as <- <- <-. auto. }
    destruct M' as [-> M']. split; [exact M'|]. split; [exists c, rk, u; auto|]. intros sv value.
    assert (EX : exists e, expr_of c = Some e) by (destruct c; try contradiction; [eexists; reflexivity|destruct c; try contradiction; eexists; reflexivity]).
    destruct EX as [e EX]. unfold item_of. rewrite EX. specialize (A sv (fun _ => value e)). cbn [segments] in A. rewrite <- A.
    rewrite (asked_of _ _ c rk u X), EX, (asked_of (compare sv) (val_at sv (fun _ => value e)) (VStr [97]) rk u X). reflexivity.
  Qed.
  Lemma having_single : forall x cmp value, having_cond x -> asked b cmp value x = asked_one b cmp value x.
  Proof. intros x cmp value [c [rk [v [-> _]]]]. reflexivity. Qed.
  Lemma held_snoc : forall cmp value ps x, having_cond x -> held cmp value (ps ++ [x]) = held cmp value ps && is_true (asked_one b cmp value x).
  Proof.
    intros cmp value ps x X. unfold held, asked_all. induction ps as [|y ps IH]; cbn [fold_right app].
    - rewrite and3_true, andb_true_r, having_single by exact X. reflexivity.
    - rewrite !and3_true, IH. now rewrite andb_assoc.
  Qed.
  Lemma held_in : forall cmp value ps x, In x ps -> having_cond x -> held cmp value ps = true -> is_true (asked_one b cmp value x) = true.
  Proof.
    intros cmp value ps x I X. unfold held, asked_all. induction ps as [|y ps IH]; [destruct I|]. cbn [fold_right]. rewrite and3_true.
    intros H. apply andb_prop in H. destruct H as [H1 H2]. destruct I as [->|I]; [|exact (IH I H2)]. now rewrite having_single in H1.
  Qed.
  Lemma any_having : forall E ps x, Forall having_cond ps -> having_cond x -> exists z, anyM (fun p => py_eq E p x) ps = Ok z /\
    (z = true -> exists p, In p ps /\ having_cond p /\ forall cmp value, asked_one b cmp value p = asked_one b cmp value x).
  Proof.
    intros E ps x F X. induction F as [|p ps Hp F IH]; cbn [anyM]; [exists false; split; [reflexivity|discriminate]|].
    destruct IH as [z [A B]]. destruct (having_eq E p x Hp X) as [[] [Q S]]; rewrite Q; cbn [ror].
    - exists true. split; [reflexivity|]. intros _. exists p. split; [now left|]. split; [exact Hp|]. apply S. reflexivity.
    - exists z. split; [exact A|]. intros Z. destruct (B Z) as [p' [I R]]. exists p'. split; [now right|exact R].
  Qed.
  Lemma having_loop : forall E pairs ps, Forall (fun p => item (fst p) /\ condition_value b (snd p)) pairs -> Forall having_cond ps ->
    exists ps', foldE (fun s p => commit s (do x <- mk_condition KWhere (fst p) (snd p); append_unique (py_eq E) s x)) ps pairs = (ps', Ok tt) /\
      Forall having_cond ps' /\
      forall sv value, held (compare sv) value ps' = held (compare sv) value ps && having_holds b sv (item_of value) pairs.
  Proof.
    intros E pairs. induction pairs as [|p pairs IH]; intros ps FP F.
    - exists ps. repeat split; auto. intros sv value. cbn. now rewrite andb_true_r.
    - inversion FP as [|? ? [P1 P1'] P2]; subst. destruct (made_having p P1 P1') as [x [M [X A]]]. destruct (any_having E ps x F X) as [z [Z1 Z2]].
      set (ps1 := if z then ps else ps ++ [x]).
      assert (F1 : Forall having_cond ps1) by (unfold ps1; destruct z; [exact F|apply Forall_app; auto]).
      destruct (IH ps1 P2 F1) as [ps' [R [F' S]]]. exists ps'. split; [|split; [exact F'|]].
      + cbn [foldE fst snd]. rewrite M. cbn [bind]. unfold append_unique. rewrite Z1. cbn [bind commit]. exact R.
      + intros sv value. rewrite S. unfold having_holds. cbn [forallb]. rewrite andb_assoc. f_equal. unfold ps1. rewrite <- A.
        destruct z; [|apply held_snoc; exact X]. destruct (Z2 eq_refl) as [y [I [Py Q]]].
        destruct (held (compare sv) value ps) eqn:Y; [|reflexivity]. cbn [andb]. rewrite <- Q. symmetry. eapply held_in; eauto.
  Qed.
  Lemma having_plainly : forall W c s a k pairs, pair_args a k pairs -> Forall (fun p => item (fst p) /\ condition_value b (snd p)) pairs ->
    conds_where W c s a k = match parse_args W pair_opts a k with
                    | Err e => (s, Err e)
                    | Ok items => foldE (fun s it => let (c0, v) := nth2 it in commit s (do x <- mk_condition c c0 v; append_unique (w_eq W) s x)) s items
                    end.
  Proof.
    intros W c s a k pairs A G.
    assert (X : (some_data a) \/ exists x y, a = [x; y] /\ is_conds x = false).
    { destruct A as [x y k kws S O|x l ps k kws Q F O|items ps k O|args ps k kws N T F O].
      - right. exists x, y. split; [reflexivity|]. inversion G as [|? ? [I _] _]; subst. cbn [fst] in I. destruct x; try contradiction; reflexivity.
      - left. right. exists x. split; [now left|]. destruct Q as [-> | ->]; reflexivity.
      - left. right. exists (VDict items). split; [now left|reflexivity].
      - left. destruct F as [|x p args ps [l [Q _]] F]; [now left|]. right. exists x. split; [now left|]. destruct Q as [-> | ->]; reflexivity. }
    destruct X as [D|[x [y [-> C]]]]; [now apply where_plainly|]. unfold conds_where. cbn [is_nilb negb forallb andb]. now rewrite C.
  Qed.
  Lemma having_effect : forall E a kw pairs ps, keys_ok a kw -> pair_args a kw pairs ->
    Forall (fun p => item (fst p) /\ condition_value b (snd p)) pairs -> Forall having_cond ps ->
    exists ps', conds_where (pure_world E) KWhere ps a kw = (ps', Ok tt) /\ Forall having_cond ps' /\
      forall sv value, held (compare sv) value ps' = held (compare sv) value ps && having_holds b sv (item_of value) pairs.
  Proof.
    intros E a kw pairs ps K A G F. rewrite (having_plainly _ _ _ _ _ _ A G). destruct (parsed_pairs (pure_world E) a kw K) as [B _].
    rewrite (B pairs A), (foldE_batches _ (fun s c0 v => commit s (do x <- mk_condition KWhere c0 v; append_unique (py_eq E) s x))). exact (having_loop E pairs ps G F).
  Qed.
  Lemma having_cond_ok : forall x, having_cond x -> cond_ok b x.
  Proof.
    intros x [c [rk [v [-> [I V]]]]].
    assert (W : cond_ok b (VCond KWhere (VStr [97]) rk v)).
    { apply (where_cond_ok b). exists [97], rk, v. split; [reflexivity|]. split; [|exact V]. split; [destruct b; cbn; intuition discriminate|discriminate]. }
    inversion W as [? ? ? ? [_ O]| | |]; subst. apply co_one. split; [|exact O].
    destruct c; try contradiction; [apply simple_good; exact I|]. destruct c; try contradiction. destruct I as [I _]. apply simple_good. exact I.
  Qed.
End Having.

(** ** The values of items *)
Section Values.
  Context (sv : server) (find : combination -> path -> literal) (total : str -> bool -> list path -> list combination -> literal).
  Lemma value_item : forall g x e, item x -> expr_of x = Some e -> value_of sv find total g e = item_value find total g x.
  Proof.
    intros g x e I X. destruct x; try contradiction; [injection X as <-; reflexivity|]. destruct x; try contradiction. injection X as <-.
    unfold value_of. replace (is_aggregate _) with true by (destruct k; reflexivity). reflexivity.
  Qed.
  Lemma function_item : forall x e, item x -> expr_of x = Some e -> is_aggregate e = is_function x.
  Proof.
    intros x e I X. destruct x; try contradiction; [injection X as <-; reflexivity|]. destruct x; try contradiction. injection X as <-.
    destruct k; reflexivity.
  Qed.
  Lemma here_item : forall b g cols cols', Forall2 says_column cols cols' -> Forall (column_item b) cols -> forall x e, item x -> expr_of x = Some e ->
    value_here sv find total cols' g e = item_here find total cols g x.
  Proof.
    intros b g cols cols' F C x e I X. destruct x; try contradiction.
    2: { cbn [item_here]. pose proof (value_item g _ e I X) as V. destruct x; try contradiction. injection X as <-. exact V. }
    injection X as <-. cbn [value_here item_here].
    assert (Z : match List.find (fun c : expr * option path => match snd c with Some a => path_eqb a (name_segments s) | None => false end) cols' with
                | Some c => Some (value_of sv find total g (fst c)) | None => None end =
                match List.find (fun c : val * val => match snd c with VStr a => path_eqb (name_segments a) (name_segments s) | _ => false end) cols with
                | Some c => Some (item_value find total g (fst c)) | None => None end).
    { induction F as [|[y a] [e o] cols cols' S F IH]; [reflexivity|]. inversion C as [|? ? [C1 C2] C3]; subst. cbn [List.find fst snd] in *.
      inversion S as [? ? ? ? U V]; subst. specialize (IH C3). destruct C2 as [-> |[w [-> _]]]; cbn in V; [subst o; exact IH|]. destruct V as [_ ->].
      cbn [path_of]. destruct (path_eqb _ _); [exact (f_equal Some (value_item g y e C1 U))|exact IH]. }
    destruct (List.find _ cols') as [c'|], (List.find _ cols) as [c|]; try discriminate Z; [now injection Z as Z|reflexivity].
  Qed.
  Lemma group_shown_same : forall b g cols cols', Forall2 says_column cols cols' -> Forall (column_item b) cols ->
    map (show_group sv find total g) cols' = map (group_shown find total g) cols.
  Proof.
    intros b g cols cols' F. induction F as [|[x a] [e o] cols cols' S F IH]; intros P; [reflexivity|]. inversion P as [|? ? [C A] P']; subst.
    cbn [map fst snd] in *. rewrite (IH P'). f_equal. inversion S as [? ? ? ? X Y]; subst. unfold show_group, group_shown. cbn [fst snd]. f_equal.
    - destruct A as [-> |[w [-> _]]]; cbn in Y; [now subst o|now destruct Y as [_ ->]].
    - pose proof (value_item g x e C X) as V. destruct x; try contradiction; [now injection X as <-|]. destruct x; try contradiction. injection X as <-. now rewrite V.
  Qed.
  Lemma functions_same : forall b cols cols', Forall2 says_column cols cols' -> Forall (column_item b) cols ->
    existsb is_aggregate (map fst cols') = existsb is_function (map fst cols).
  Proof.
    intros b cols cols' F. induction F as [|[x a] [e o] cols cols' S F IH]; intros P; [reflexivity|]. inversion P as [|? ? [C A] P']; subst.
    cbn [map existsb fst]. rewrite (IH P'). f_equal. inversion S as [? ? ? ? X Y]; subst. now apply function_item.
  Qed.
End Values.
Lemma groups_same : forall same K L b rows gs, (K = [] <-> L = []) -> (forall c d, agree same K c d = agree same L c d) ->
  groups same K b rows gs -> groups same L b rows gs.
Proof.
  intros same K L b rows gs N A [P G]. split; [exact P|]. destruct K as [|f K], L as [|f' L].
  - exact G.
  - exfalso. assert (X : f' :: L = []) by (now apply N). discriminate.
  - exfalso. assert (X : f :: K = []) by (now apply N). discriminate.
  - destruct G as [G1 G2]. split.
    + eapply Forall_impl; [|exact G1]. intros g [H1 H2]. split; [exact H1|]. intros c d I J. rewrite <- A. now apply H2.
    + clear -G2 A. induction G2 as [|g gs H G IH]; constructor; [|exact IH]. eapply Forall_impl; [|exact H]. intros h X c d I J. rewrite <- A. now apply X.
Qed.
Lemma agree_same : forall same (at_ : combination -> val -> literal) K L, (forall x, In x K <-> In x L) ->
  forall c d, agree same (map (fun x e => at_ e x) K) c d = agree same (map (fun x e => at_ e x) L) c d.
Proof.
  intros same at_ K L I c d. unfold agree.
  assert (M : forall K L, (forall x : val, In x K -> In x L) -> forallb (fun f : combination -> literal => same (f c) (f d)) (map (fun x e => at_ e x) L) = true ->
    forallb (fun f : combination -> literal => same (f c) (f d)) (map (fun x e => at_ e x) K) = true).
  { clear. intros K L I H. rewrite forallb_forall in *. intros f J. apply in_map_iff in J. destruct J as [x [<- J]]. apply (H (fun e => at_ e x)). apply in_map_iff. exists x. auto. }
  destruct (forallb _ (map _ K)) eqn:X, (forallb _ (map _ L)) eqn:Y; try reflexivity.
  - rewrite <- Y. symmetry. apply (M L K); [|exact X]. intros x. apply I.
  - rewrite <- X. apply (M K L); [|exact Y]. intros x. apply I.
Qed.

(** ** Programs *)
Definition all_from (given : list asks_groups) := flat_map (fun g => as_from (ag_join g)) given.
Definition all_where (given : list asks_groups) := flat_map (fun g => as_where (ag_join g)) given.
Definition all_columns (given : list asks_groups) := flat_map (fun g => as_columns (ag_join g)) given.
Definition all_order (given : list asks_groups) := flat_map (fun g => as_order (ag_join g)) given.
Section Final.
  Context (b : backend) (E : env).
  Let call_of := fun (bo : backend * selop) g => group_call b (supper E) (fst bo) (snd bo) g.
  Definition fine (srcs : list asked_table) (wh cols ord gr ha : list (val * val)) (q : selq val) : Prop :=
    (s_opts q = no_selopts /\ o_file (s_out q) = None) /\ Forall2 (table_state b) srcs (s_tabs q) /\
    (Forall (where_cond b) (s_where q) /\ forall sv at_, mirrored sv -> chosen b sv at_ (s_where q) = where_holds b sv at_ wh) /\
    (Forall (column_item b) (s_cols q) /\ first_occurrences cols (s_cols q)) /\
    (Forall (fun o => item (fst o)) (s_order q) /\ SpecLists.ordered_list (supper E) ord (s_order q)) /\
    (Forall (fun o => name_key (fst o)) (s_group q) /\ SpecLists.ordered_list (supper E) gr (s_group q)) /\
    (Forall (having_cond b) (s_having q) /\ forall sv value, held b (compare sv) value (s_having q) = having_holds b sv (item_of value) ha).
  Lemma fine_step : forall srcs srcs' wh cols ord gr ha bo op g q, fine srcs wh cols ord gr ha q -> group_call b (supper E) bo op g ->
    fold_left (fun o p => match o with Some ts => add_part ts p | None => None end) (as_from (ag_join g)) (Some srcs) = Some srcs' ->
    NoDup (flat_map names_of srcs') ->
    exists q', sel_step (pure_world (with_be E bo)) q op = (q', Ok tt) /\
      fine srcs' (wh ++ as_where (ag_join g)) (cols ++ as_columns (ag_join g)) (ord ++ as_order (ag_join g)) (gr ++ ag_group g) (ha ++ ag_having g) q'.
  Proof.
    intros srcs srcs' wh cols ord gr ha bo op g q [F1 [F2 [[F3 F3'] [[F4 F4'] [[F5 F5'] [[F6 F6'] [F7 F7']]]]]]] P TA ND.
    destruct P as [op g J NC NO|a k ps K A P|a k ps K A P|a k ps K A P|a k ps K A P]; cbn [ag_join ag_group ag_having as_from as_where as_columns as_order nothing] in *.
    - rewrite NC, NO, !app_nil_r. destruct (one_part b _ _ _ _ J) as [Z|[p Z]]; rewrite Z in TA; cbn [fold_left] in TA.
      + injection TA as <-. destruct J; try discriminate Z; cbn [as_columns as_where as_order nothing] in *; rewrite ?app_nil_r.
        * (* columns() *) subst ps. destruct (columns_effect b (with_be E bo) a k [] cols (s_cols q) H H0 (Forall_nil _) F4 F4') as [out [Q [O1 O2]]].
          exists (with_cols q out). split; [cbn [sel_step]; rewrite Q; reflexivity|]. rewrite app_nil_r in O2. repeat split; auto; try apply F1; try apply F5'; apply F6'.
        * destruct (where_effect b (with_be E bo) a k ps (s_where q) H F3) as [wh' [Q [W S]]].
          exists (with_where q wh'). split; [cbn [sel_step]; rewrite Q; reflexivity|]. repeat split; auto; try apply F1; try apply F5'; try apply F6'.
          intros sv at_ MI. cbn [s_where with_where]. rewrite (S sv at_ MI), (F3' sv at_ MI). unfold where_holds. now rewrite forallb_app.
        * (* order_by() *) subst ps. destruct (orders_effect item item_eq item_name (with_be E bo) a k [] ord (s_order q) H H0 (Forall_nil _) F5 F5') as [out [Q [O1 O2]]].
          exists (with_order q out). split; [cbn [sel_step]; rewrite Q; reflexivity|]. rewrite app_nil_r in O2. repeat split; auto; try apply F1; try apply O2; apply F6'.
        * apply (limit_rejects (pure_world (with_be E bo)) q l o) in H.
          exists (fst (sel_step (pure_world (with_be E bo)) q (SLimit l o))). split; [rewrite <- H; apply surjective_pairing|]. repeat split; auto; try apply F1; try apply F5'; apply F6'.
        * apply (offset_rejects (pure_world (with_be E bo)) q o) in H.
          exists (fst (sel_step (pure_world (with_be E bo)) q (SOffset o))). split; [rewrite <- H; apply surjective_pairing|]. repeat split; auto; try apply F1; try apply F5'; apply F6'.
        * eexists. split; [reflexivity|]. repeat split; auto; try apply F1; try apply F5'; apply F6'.
      + destruct (part_step b E bo op g srcs srcs' (s_tabs q) p J Z TA F2 ND q eq_refl) as [ts' [R1 R2]].
        exists (with_tabs q ts'). split; [exact R1|]. replace (as_where g) with (@nil (val * val)) by (destruct J; try reflexivity; discriminate Z).
        rewrite app_nil_r. repeat split; auto; try apply F1; try apply F5'; apply F6'.
    - cbn [fold_left] in TA. injection TA as <-. rewrite !app_nil_r.
      destruct (columns_effect b (with_be E bo) a k ps cols (s_cols q) K A P F4 F4') as [out [Q [O1 O2]]].
      exists (with_cols q out). split; [cbn [sel_step]; rewrite Q; reflexivity|]. repeat split; auto; try apply F1; try apply F5'; apply F6'.
    - cbn [fold_left] in TA. injection TA as <-. rewrite !app_nil_r.
      destruct (orders_effect item item_eq item_name (with_be E bo) a k ps ord (s_order q) K A P F5 F5') as [out [Q [O1 O2]]].
      exists (with_order q out). split; [cbn [sel_step]; rewrite Q; reflexivity|]. repeat split; auto; try apply F1; try apply O2; apply F6'.
    - cbn [fold_left] in TA. injection TA as <-. rewrite !app_nil_r.
      destruct (orders_effect name_key name_key_eq name_key_name (with_be E bo) a k ps gr (s_group q) K A) as [out [Q [O1 O2]]]; auto.
      { eapply Forall_impl; [|exact P]. intros p [[c [C _]] D]. split; [exists c; exact C|eauto]. }
      exists (with_group q out). split; [cbn [sel_step]; rewrite Q; reflexivity|]. repeat split; auto; try apply F1; try apply O2; apply F5'.
    - cbn [fold_left] in TA. injection TA as <-. rewrite !app_nil_r.
      destruct (having_effect b (with_be E bo) a k ps (s_having q) K A P F7) as [ha' [Q [W S]]].
      exists (with_having q ha'). split; [cbn [sel_step]; rewrite Q; reflexivity|]. repeat split; auto; try apply F1; try apply F5'; try apply F6'.
      intros sv value. cbn [s_having with_having]. rewrite (S sv value), (F7' sv value). unfold having_holds. now rewrite forallb_app.
  Qed.
  Lemma prefix_nodup : forall A (l m : list A), NoDup (l ++ m) -> NoDup l.
  Proof.
    intros A l m N. induction l as [|x l IH]; [constructor|]. inversion N as [|? ? N1 N2]; subst. constructor; [|now apply IH].
    intros I. apply N1. apply in_or_app. now left.
  Qed.
  Lemma parts_names : forall ps srcs srcs', fold_left (fun o p => match o with Some ts => add_part ts p | None => None end) ps (Some srcs) = Some srcs' ->
    exists more, flat_map names_of srcs' = flat_map names_of srcs ++ more.
  Proof.
    intros ps. induction ps as [|p ps IH]; intros srcs srcs' H; cbn [fold_left] in H; [injection H as <-; exists []; now rewrite app_nil_r|].
    destruct (add_part srcs p) as [s1|] eqn:Q.
    - destruct (names_grow _ _ _ Q) as [m M], (IH s1 srcs' H) as [n N]. exists (m ++ n). now rewrite N, M, app_assoc.
    - exfalso. clear -H. induction ps; [discriminate|auto].
  Qed.
  Lemma group_inv : forall H given srcs, Forall2 call_of H given ->
    tables_asked (all_from given) = Some srcs -> NoDup (flat_map names_of srcs) ->
    let h := program E H in
    let q := calls sel_step empty_select h in
    all_succeed sel_step empty_select h /\
    fine srcs (all_where given) (all_columns given) (all_order given) (flat_map ag_group given) (flat_map ag_having given) q.
  Proof.
    intros H given srcs F TA ND. cbv zeta. revert given srcs F TA ND. induction H as [|[bo op] H IH] using rev_ind; intros given srcs F TA ND.
    - inversion F; subst. cbn in TA. injection TA as <-. cbn. split; [exact Logic.I|].
      repeat split; try constructor; intros ? ? [].
    - apply PfLists.Forall2_snoc in F. destruct F as [given' [g [-> [F P]]]]. unfold call_of in P. cbn [fst snd] in P.
      unfold all_from, all_where, all_columns, all_order in *. rewrite !flat_map_app in *. cbn [flat_map] in *. rewrite !app_nil_r in *. rewrite parts_snoc in TA.
      destruct (tables_asked (flat_map (fun g => as_from (ag_join g)) given')) as [srcs'|] eqn:TA'.
      2: { exfalso. clear -TA. induction (as_from (ag_join g)); [discriminate|auto]. }
      assert (ND' : NoDup (flat_map names_of srcs')).
      { destruct (parts_names _ _ _ TA) as [more M]. rewrite M in ND. now apply prefix_nodup in ND. }
      destruct (IH given' srcs' F TA' ND') as [A I].
      rewrite PfLists.program_snoc, calls_snoc. destruct (fine_step _ _ _ _ _ _ _ _ _ _ _ I P TA ND) as [q' [Q I']].
      split; [apply succeed_snoc; [exact A|]; now rewrite Q|]. rewrite Q. exact I'.
  Qed.

  Lemma grouped_kept : forall q acols aorder agroup (keeps : server -> (val -> literal) -> bool) srcs (cond : server -> (path -> literal) -> bool) dist lim off,
    o_file (s_out q) = None -> Forall2 (table_state b) srcs (s_tabs q) -> NoDup (flat_map names_of srcs) ->
    Forall (cond_ok b) (s_where q) -> (forall sv at_, mirrored sv -> chosen b sv at_ (s_where q) = cond sv at_) ->
    Forall (column_item b) (s_cols q) -> first_occurrences acols (s_cols q) ->
    Forall (fun o => item (fst o)) (s_order q) -> SpecLists.ordered_list (supper E) aorder (s_order q) ->
    Forall (fun p => (exists c, fst p = VStr c /\ good_name (quote_of b) c) /\ direction (supper E) (snd p) Asc) agroup ->
    SpecLists.ordered_list (supper E) agroup (s_group q) ->
    (forall sv f g, (forall x, item x -> f x = g x) -> keeps sv f = keeps sv g) -> Forall (cond_ok b) (s_having q) ->
    (forall sv value, held b (compare sv) value (s_having q) = keeps sv (item_of value)) ->
    s_limit q = MkLimits lim off -> opt_state (s_opts q) ODistinct || opt_state (s_opts q) ODistinctrow = dist ->
    bounded lim -> bounded off ->
    (forall c a k v, In (c, VStr a) acols -> In (VStr k, v) agroup -> name_segments a <> name_segments k) ->
    (dist = true -> forall k v, In (k, v) aorder -> exists c a, In (c, a) (columns_asked acols) /\ (c = k \/ a = k)) ->
    exists s st cols order, text (with_be E b) (VSelect q) = Ok s /\ understood (dialect_of b) s = Some st /\
      first_occurrences acols cols /\ SpecLists.ordered_list (supper E) aorder order /\
      (s_opts q = no_selopts -> exists cols from wh gr ha ord lim off fu, st = StSelect [] cols from wh gr ha ord lim off fu) /\
      forall sv find le same total by_alias db out, mirrored sv -> (grouped_answers sv find le same total by_alias db st out <->
        groups_kept b sv find le same total by_alias db dist (columns_asked cols) srcs (fun c => cond sv (find c)) agroup (keeps sv) order lim off out).
  Proof.
    intros q acols aorder agroup keeps srcs cond dist lim off N2 T ND W S C1 C2 O1 O2 PG G2 PH Ha Hs L DI BL BO NA SD.
    assert (GG : Forall (fun p => (exists c, fst p = VStr c /\ good_name (quote_of b) c) /\ snd p = Asc) (s_group q)).
    { rewrite Forall_forall in PG |- *. intros [c d] J. destruct G2 as [G2 G3].
      assert (J' : In c (map fst agroup)) by (apply (PfLists.fo_in _ _ _ G2); apply in_map_iff; exists (c, d); auto).
      apply in_map_iff in J'. destruct J' as [p [Q J']]. destruct (PG p J') as [X _]. rewrite Q in X. split; [exact X|]. cbn [snd].
      destruct (G3 c d J) as [pre [v [post [Z [_ D]]]]]. assert (J2 : In (c, v) agroup) by (rewrite Z; apply in_or_app; right; now left).
      destruct (PG _ J2) as [_ D']. exact (PfLists.direction_fun _ _ _ _ D D'). }
    assert (TF : Forall (table_fine b) (s_tabs q)).
    { clear -T ND. induction T as [|x t xs ts Q T IH]; [constructor|]. cbn [flat_map] in ND.
      assert (NX : NoDup (names_of x) /\ NoDup (flat_map names_of xs)).
      { revert ND. generalize (names_of x) as l. generalize (flat_map names_of xs) as m. clear. intros m l. induction l as [|y l IH]; intros N; [split; [constructor|exact N]|].
        inversion N as [|? ? M1 M2]; subst. destruct (IH M2) as [U V]. split; [|exact V]. constructor; [|exact U]. intros J. apply M1. apply in_or_app. now left. }
      constructor; [apply (state_fine b x t Q); tauto|apply IH; tauto]. }
    assert (IE : forall x, item x -> expr_ok b x).
    { intros x I. destruct x; try contradiction; [apply simple_good; exact I|]. destruct x; try contradiction. destruct I as [I _]. apply simple_good. exact I. }
    destruct (select_statement (with_be E b) q) as [s [st [X1 [X2 X3]]]].
    { cbn [with_be e_be]. split; [|split; [|split; [|split; [|split; [|split]]]]].
      - eapply Forall_impl; [|exact C1]. intros p [I Al]. split; [now apply IE|]. destruct Al as [-> |[a [-> Ga]]]; [exact Logic.I|exact Ga].
      - exact TF.
      - exact W.
      - eapply Forall_impl; [|exact GG]. intros p [[c [-> Gc]] _]. exact Gc.
      - exact Ha.
      - eapply Forall_impl; [|exact O1]. intros p. apply IE.
      - exact N2. }
    cbn [with_be e_be] in X2, X3.
    exists s, st, (s_cols q), (s_order q). split; [exact X1|]. split; [exact X2|]. split; [exact C2|]. split; [exact O2|].
    destruct q as [op cols tabs wh gr ha ord lims out fu]. cbn [s_opts s_cols s_tabs s_where s_group s_having s_order s_limit s_out] in *.
    subst lims.
    inversion X3 as [? ? ? ? ? ? ? ? ? ? ? op' cols' tabs' wh' gr' ha' ord' Y1 Y2 Y3 Y4 Y5 Y6 Y7]. clear X3. subst.
    pose proof (distinct_said _ _ Y1) as OI.
    split; [intros ->; cbn in Y1; apply Permutation_sym, Permutation_nil in Y1; subst op'; repeat eexists|].
    assert (CA : Forall (column_item b) (columns_asked cols)).
    { destruct cols as [|p cols]; [|exact C1]. constructor; [|constructor]. split; [|now left]. cbn. unfold simple_name, good_name. cbn. intuition discriminate. }
    assert (K : forall sv find, mirrored sv -> forall c, kept (compare sv) (value_in sv find c) wh' = cond sv (find c)).
    { intros sv find MI c. rewrite <- (S sv (find c) MI). apply (kept_chosen b sv (find c) wh wh' Y4). }
    assert (R : forall sv find db, mirrored sv -> all_rows db (map (tree_of sv find) tabs') = all_rows db (map (tree_asked b sv find) srcs)).
    { intros sv find db MI. apply rows_same. clear -T Y3 MI. revert tabs' Y3. induction T as [|x t xs ts Q T IH]; intros tabs' Y; inversion Y as [|? s ? ss Y1 Y2]; subst; cbn [map]; [constructor|].
      constructor; [|now apply IH]. eapply tree_same; eauto. }
    assert (KH : forall sv value, kept (compare sv) value ha' = keeps sv (item_of value)).
    { intros sv value. rewrite <- (Hs sv value). unfold kept, held. destruct ha as [|x ha], ha' as [e|]; try contradiction; [reflexivity|]. cbn [says_conditions] in Y6. now rewrite Y6. }
    assert (HV : forall sv find total g (ba : bool), kept (compare sv) (if ba then value_here sv find total cols' g else value_of sv find total g) ha' =
      keeps sv (if ba then item_here find total (columns_asked cols) g else item_value find total g)).
    { intros sv find total g ba. rewrite KH. apply PH. intros x I. unfold item_of.
      assert (EX : exists e, expr_of x = Some e) by (destruct x; try contradiction; [eexists; reflexivity|destruct x; try contradiction; eexists; reflexivity]).
      destruct EX as [e EX]. rewrite EX. destruct ba; [eapply here_item; eauto|eapply value_item; eauto]. }
    (* GROUP BY *)
    assert (GD : Forall (fun k => snd k = false) gr').
    { clear -Y5 GG. induction Y5 as [|[x d] [e u] gr gr' Q Y5 IH]; [constructor|]. inversion GG as [|? ? [_ D] GG']; subst. cbn [snd] in D. subst d. constructor; [|auto]. now inversion Q. }
    assert (GK : forall sv find, map (fun k c => value_in sv find c (fst k)) gr' = map (fun x c => find c (segments x)) (map fst gr)).
    { intros sv find. clear -Y5 GG. induction Y5 as [|[x d] [e u] gr gr' Q Y5 IH]; [reflexivity|]. inversion GG as [|? ? [[c [D _]] _] GG']; subst. cbn [fst] in D. subst x.
      cbn [map fst]. rewrite (IH GG'). f_equal. inversion Q as [? ? U|? ? U]; subst; cbn in U; injection U as <-; reflexivity. }
    assert (GI : forall x, In x (map fst gr) <-> In x (map fst agroup)).
    { intros x. destruct G2 as [G2 _]. symmetry. apply (PfLists.fo_in _ _ _ G2). }
    assert (GS : forall find same K L a rows gs, K = map (fun x c => find c (segments x)) (map fst gr) -> L = map (fun p c => find c (segments (fst p))) agroup ->
      groups same K a rows gs <-> groups same L a rows gs).
    { intros find same K0 L a rows gs QK QL.
      assert (QL' : L = map (fun x c => find c (segments x)) (map fst agroup)) by (rewrite map_map; exact QL).
      assert (NE : K0 = [] <-> L = []).
      { rewrite QK, QL'. clear -GI. destruct (map fst gr) as [|x xs], (map fst agroup) as [|y ys]; cbn [map].
        - tauto.
        - exfalso. apply (proj2 (GI y)). now left.
        - exfalso. apply (proj1 (GI x)). now left.
        - split; discriminate. }
      assert (AG : forall c d, agree same K0 c d = agree same L c d).
      { rewrite QK, QL'. apply (agree_same same (fun c x => find c (segments x))). exact GI. }
      split; apply groups_same; auto; try tauto. }
    assert (NA' : forall a, In (Some a) (map snd cols') -> ~ In (EColumn a) (map fst gr')).
    { intros a J1 J2. apply in_map_iff in J1. destruct J1 as [[e o] [Q1 J1]]. cbn [snd] in Q1. subst o.
      apply in_map_iff in J2. destruct J2 as [[e2 u] [Q2 J2]]. cbn [fst] in Q2. subst e2.
      assert (Z : exists c x, In (c, VStr x) cols /\ name_segments x = a).
      { clear -Y2 J1 CA. assert (Q : exists c x, In (c, VStr x) (columns_asked cols) /\ name_segments x = a).
        { revert J1 CA. induction Y2 as [|[x al] c' l l' Q F IH]; intros J1 CA; [destruct J1|]. inversion CA as [|? ? [_ S1] S2]; subst. destruct J1 as [-> |J1].
          - inversion Q as [? ? ? ? U V]; subst. cbn [snd] in S1. destruct S1 as [-> |[y [-> _]]]; [discriminate V|]. cbn in V. destruct V as [_ V]. injection V as ->.
            exists x, y. split; [now left|reflexivity].
          - destruct (IH J1 S2) as [c [y [U V]]]. exists c, y. split; [now right|exact V]. }
        destruct Q as [c [x [Q1 Q2]]]. exists c, x. split; [|exact Q2]. destruct cols; [|exact Q1]. destruct Q1 as [Q1|[]]. discriminate Q1. }
      destruct Z as [c [x [J3 <-]]].
      assert (Z : exists k d, In (VStr k, d) gr /\ name_segments k = name_segments x).
      { clear -Y5 J2 GG. revert J2 GG. induction Y5 as [|[y d] o' l l' Q F IH]; intros J2 GG; [destruct J2|]. inversion GG as [|? ? [[k [S1 _]] _] S2]; subst. destruct J2 as [-> |J2].
        - cbn [fst] in S1. subst y. exists k, d. split; [now left|]. inversion Q as [? ? U|? ? U]; subst; cbn in U; now injection U.
        - destruct (IH J2 S2) as [k2 [d2 [U V]]]. exists k2, d2. split; [now right|exact V]. }
      destruct Z as [k [d [J4 Z]]].
      assert (J5 : In (VStr k) (map fst agroup)) by (apply GI; apply in_map_iff; exists (VStr k, d); auto).
      apply in_map_iff in J5. destruct J5 as [[k' v] [Q5 J5]]. cbn [fst] in Q5. subst k'.
      apply (NA c x k v); [now apply (PfLists.fo_in _ _ _ C2)|exact J5|now symmetry]. }
    assert (SD' : existsb distinct_word op' = true -> forall e, In e (map fst ord') -> In e (map fst cols') \/ exists a, e = EColumn a /\ In (Some a) (map snd cols')).
    { intros D e J. rewrite OI in D.
      assert (Z : exists x d, In (x, d) ord /\ expr_of x = Some e).
      { clear -Y7 J. revert J. induction Y7 as [|[y d] o' l l' Q F IH]; intros J2; [destruct J2|]. destruct J2 as [<- |J2].
        - exists y, d. split; [now left|]. inversion Q as [? ? U|? ? U]; subst; exact U.
        - destruct (IH J2) as [x2 [d2 [U V]]]. exists x2, d2. split; [now right|exact V]. }
      destruct Z as [x [d [J4 EX]]].
      assert (J5 : In x (map fst aorder)) by (destruct O2 as [O2 _]; apply (PfLists.fo_in _ _ _ O2); apply in_map_iff; exists (x, d); auto).
      apply in_map_iff in J5. destruct J5 as [[k' v] [Q5 J5]]. cbn [fst] in Q5. subst k'.
      destruct (SD D _ _ J5) as [c [a [J6 Z]]].
      assert (J7 : In (c, a) (columns_asked cols)).
      { destruct acols as [|y l]; cbn [columns_asked] in J6.
        - assert (cols = []) as -> by (destruct cols as [|y cols]; [reflexivity|]; exfalso; destruct (proj2 (PfLists.fo_in _ _ _ C2 y) (or_introl eq_refl))). exact J6.
        - apply (PfLists.fo_in _ _ _ C2) in J6. destruct cols; [destruct J6|exact J6]. }
      clear -Y2 J7 CA EX Z O1 J4. revert J7 CA. induction Y2 as [|[y al] [e' o'] l l' Q F IH]; intros J7 CA; [destruct J7|]. inversion CA as [|? ? [I1 S1] S2]; subst. destruct J7 as [J7|J7].
      - injection J7 as -> ->. cbn [fst snd] in *. inversion Q as [? ? ? ? U V]; subst. destruct Z as [-> | ->].
        + left. left. cbn [fst]. congruence.
        + right. destruct S1 as [-> |[w [-> _]]]; [discriminate EX|]. cbn in EX. injection EX as <-. cbn in V. destruct V as [_ ->].
          eexists. split; [reflexivity|]. now left.
      - destruct (IH J7 S2) as [U|[u [U V]]]; [left; now right|right; exists u; split; [exact U|now right]]. }
    (* ORDER BY *)
    assert (OK : forall sv find total, map (fun k => (fun g => value_here sv find total cols' g (fst k), snd k)) ord' =
                 map (fun k => (fun g => value_here sv find total cols' g (match expr_of (fst k) with Some e => e | None => EColumn [] end), match snd k with Desc => true | Asc => false end)) ord).
    { intros sv find total. clear -Y7. induction Y7 as [|[x d] [e u] ord ord' Q Y7 IH]; [reflexivity|]. cbn [map fst snd]. rewrite IH. f_equal. inversion Q as [? ? U|? ? U]; subst; now rewrite U. }
    assert (OS : forall sv find total le g g', sorted_by le (map (fun k => (fun g => value_here sv find total cols' g (fst k), snd k)) ord') g g' =
                 sorted_by le (map (fun p => (fun g => item_here find total (columns_asked cols) g (fst p), match snd p with Desc => true | Asc => false end)) ord) g g').
    { intros sv find total le g g'. rewrite OK. clear -O1 Y2 CA. induction O1 as [|[x d] ord I O1 IH]; [reflexivity|]. cbn [map fst snd sorted_by] in *.
      assert (EX : exists e, expr_of x = Some e) by (destruct x; try contradiction; [eexists; reflexivity|destruct x; try contradiction; eexists; reflexivity]).
      destruct EX as [e EX]. rewrite EX, !(here_item sv find total b _ _ _ Y2 CA x e I EX). destruct d; rewrite IH; reflexivity. }
    assert (SS : forall A (P Q : A -> A -> Prop) l, (forall x y, P x y -> Q x y) -> StronglySorted P l -> StronglySorted Q l).
    { intros A0 P Q l I X. induction X as [|x l X IH Y]; constructor; [exact IH|]. eapply Forall_impl; [|exact Y]. auto. }
    intros sv find le same total ba db res MI. specialize (K sv find MI). specialize (R sv find db MI). split; intros J.
    - inversion J as [? ? ? ? ? ? ? ? ? ? gs ks B1 B2 B3 B4 B8 B5 B6 B7]; subst.
      rewrite R, (filter_ext _ _ K), (functions_same b _ _ Y2 CA) in B5. rewrite (GS find same _ _ _ _ gs (GK sv find) eq_refl) in B5.
      rewrite (map_ext _ _ (fun g => group_shown_same sv find total b g _ _ Y2 CA)). apply (gkept b sv find le same total ba db _ _ _ _ _ _ _ _ _ gs); auto.
      + rewrite (filter_ext _ _ (fun g => HV sv find total g ba)), OI in B6.
        apply (remaining_same b E _ _ _ _ _ _ (fun g => group_shown_same sv find total b g _ _ Y2 CA)) in B6. exact B6.
      + refine (SS _ _ _ _ _ B7). intros x y X. now rewrite OS in X.
    - inversion J as [gs ks B5 B6 B7]; subst. rewrite <- (map_ext _ _ (fun g => group_shown_same sv find total b g _ _ Y2 CA)).
      apply (gdans sv find le same total ba db _ _ _ _ _ _ _ _ _ _ gs); auto.
      + rewrite R, (filter_ext _ _ K), (functions_same b _ _ Y2 CA). now rewrite (GS find same _ _ _ _ gs (GK sv find) eq_refl).
      + rewrite (filter_ext _ _ (fun g => HV sv find total g ba)), OI.
        apply (remaining_same b E _ _ _ _ _ _ (fun g => group_shown_same sv find total b g _ _ Y2 CA)). exact B6.
      + refine (SS _ _ _ _ _ B7). intros x y X. now rewrite OS.
  Qed.
  Lemma grouped_said : forall q acols aorder agroup ahaving srcs (cond : server -> (path -> literal) -> bool) dist lim off,
    o_file (s_out q) = None -> Forall2 (table_state b) srcs (s_tabs q) -> NoDup (flat_map names_of srcs) ->
    Forall (cond_ok b) (s_where q) -> (forall sv at_, mirrored sv -> chosen b sv at_ (s_where q) = cond sv at_) ->
    Forall (column_item b) (s_cols q) -> first_occurrences acols (s_cols q) ->
    Forall (fun o => item (fst o)) (s_order q) -> SpecLists.ordered_list (supper E) aorder (s_order q) ->
    Forall (fun p => (exists c, fst p = VStr c /\ good_name (quote_of b) c) /\ direction (supper E) (snd p) Asc) agroup ->
    SpecLists.ordered_list (supper E) agroup (s_group q) ->
    Forall (fun p => item (fst p)) ahaving -> Forall (having_cond b) (s_having q) ->
    (forall sv value, held b (compare sv) value (s_having q) = having_holds b sv (item_of value) ahaving) ->
    s_limit q = MkLimits lim off -> opt_state (s_opts q) ODistinct || opt_state (s_opts q) ODistinctrow = dist ->
    bounded lim -> bounded off ->
    (forall c a k v, In (c, VStr a) acols -> In (VStr k, v) agroup -> name_segments a <> name_segments k) ->
    (dist = true -> forall k v, In (k, v) aorder -> exists c a, In (c, a) (columns_asked acols) /\ (c = k \/ a = k)) ->
    exists s st cols order, text (with_be E b) (VSelect q) = Ok s /\ understood (dialect_of b) s = Some st /\
      first_occurrences acols cols /\ SpecLists.ordered_list (supper E) aorder order /\
      (s_opts q = no_selopts -> exists cols from wh gr ha ord lim off fu, st = StSelect [] cols from wh gr ha ord lim off fu) /\
      forall sv find le same total by_alias db out, mirrored sv -> (grouped_answers sv find le same total by_alias db st out <->
        groups_asked b sv find le same total by_alias db dist (columns_asked cols) srcs (fun c => cond sv (find c)) agroup ahaving order lim off out).
  Proof.
    intros q acols aorder agroup ahaving srcs cond dist lim off N2 T ND W S C1 C2 O1 O2 PG G2 PH Ha Hs L DI BL BO NA SD.
    destruct (grouped_kept q acols aorder agroup (fun sv value => having_holds b sv value ahaving) srcs cond dist lim off)
      as [s [st [cols [order [X1 [X2 [X3 [X4 [X5 X6]]]]]]]]]; auto.
    - intros sv f g FG. unfold having_holds. clear -PH FG. induction PH as [|[x v] ps I PH IH]; [reflexivity|]. cbn [forallb fst snd] in *. now rewrite IH, (FG x I).
    - eapply Forall_impl; [|exact Ha]. apply having_cond_ok.
    - exists s, st, cols, order. do 5 (split; [assumption|]). intros sv find le same total ba db out MI. rewrite (X6 sv find le same total ba db out MI).
      split; intros J; inversion J as [gs ks B5 B6 B7]; subst; [apply (gasked b sv find le same total ba db _ _ _ _ _ _ _ _ _ gs)|apply (gkept b sv find le same total ba db _ _ _ _ _ _ _ _ _ gs)]; assumption.
  Qed.
  Lemma given_items : forall H given, Forall2 call_of H given ->
    Forall (fun p => (exists c, fst p = VStr c /\ good_name (quote_of b) c) /\ direction (supper E) (snd p) Asc) (flat_map ag_group given) /\
    Forall (fun p => item (fst p)) (flat_map ag_having given).
  Proof.
    intros H given F. split.
    - induction F as [|[bo op] g H given P F IH]; [constructor|]. cbn [flat_map]. apply Forall_app. split; [|exact IH].
      unfold call_of in P. cbn [fst snd] in P. destruct P; cbn [ag_group]; try constructor. assumption.
    - induction F as [|[bo op] g H given P F IH]; [constructor|]. cbn [flat_map]. apply Forall_app. split; [|exact IH].
      unfold call_of in P. cbn [fst snd] in P. destruct P; cbn [ag_having]; try constructor. eapply Forall_impl; [|eassumption]. intros p [X _]. exact X.
  Qed.
  Lemma group_program : forall H given srcs, Forall2 call_of H given ->
    tables_asked (all_from given) = Some srcs -> NoDup (flat_map names_of srcs) ->
    bounded (wanted_limit (map snd H)) -> bounded (wanted_offset (map snd H)) ->
    (forall c a k v, In (c, VStr a) (all_columns given) -> In (VStr k, v) (flat_map ag_group given) -> name_segments a <> name_segments k) ->
    let h := program E H in
    let q := calls sel_step empty_select h in
    all_succeed sel_step empty_select h /\
    exists s st cols order, text (with_be E b) (VSelect q) = Ok s /\ understood (dialect_of b) s = Some st /\
      first_occurrences (all_columns given) cols /\ SpecLists.ordered_list (supper E) (all_order given) order /\
      forall sv find le same total by_alias db out, mirrored sv -> (group_answers sv find le same total by_alias db st out <->
        asked_groups b sv find le same total by_alias db (columns_asked cols) srcs (all_where given) (flat_map ag_group given) (flat_map ag_having given) order
          (wanted_limit (map snd H)) (wanted_offset (map snd H)) out).
  Proof.
    intros H given srcs F TA ND BL BO NA h q.
    destruct (group_inv H given srcs F TA ND) as [A [[N1 N2] [T [[W S] [[C1 C2] [[O1 O2] [[G1 G2] [Ha Hs]]]]]]]]. fold h in A. fold h q in N1, N2, T, W, S, C1, C2, O1, O2, G1, G2, Ha, Hs.
    split; [exact A|]. destruct (given_items H given F) as [PG PH].
    destruct (grouped_said q (all_columns given) (all_order given) (flat_map ag_group given) (flat_map ag_having given) srcs
      (fun sv at_ => where_holds b sv at_ (all_where given)) false (wanted_limit (map snd H)) (wanted_offset (map snd H))) as [s [st [cols [order [X1 [X2 [X3 [X4 [X5 X6]]]]]]]]]; auto.
    - eapply Forall_impl; [|exact W]. apply where_cond_ok.
    - unfold q. rewrite limit_state. unfold h, program. rewrite map_map. reflexivity.
    - rewrite N1. reflexivity.
    - discriminate.
    - exists s, st, cols, order. split; [exact X1|]. split; [exact X2|]. split; [exact X3|]. split; [exact X4|].
      destruct (X5 N1) as [c' [fr [wh [gr [ha [ord [lim [off [fu ->]]]]]]]]].
      intros sv find le same total ba db out MI. specialize (X6 sv find le same total ba db out MI). split; intros J.
      + assert (J' : groups_asked b sv find le same total ba db false (columns_asked cols) srcs (fun c => where_holds b sv (find c) (all_where given)) (flat_map ag_group given)
          (flat_map ag_having given) order (wanted_limit (map snd H)) (wanted_offset (map snd H)) out).
        { apply X6. inversion J; subst. eapply gdans; eauto. discriminate. }
        inversion J'; subst. eapply agrp; eauto.
      + assert (J' : grouped_answers sv find le same total ba db (StSelect [] c' fr wh gr ha ord lim off fu) out).
        { apply X6. inversion J; subst. eapply gasked; eauto. }
        inversion J'; subst. eapply gans; eauto.
  Qed.
End Final.
