(** Lemmas: the list clauses built by a history of calls (C23, C24, C33), the
    independence of clauses (C31) and joins (C34, C38). *)
From Coq Require Import Lia Permutation Sorted.
From Verif Require Import Base BaseFacts NumFmt Value Backend Eq Render RenderFacts ParseArgs Build Queries History
  SpecArgs SpecHistory SpecClauses SpecLists PfArgs PfDedupe PfHistories PfClauses.
Open Scope N_scope.

(** ** First occurrences *)
Lemma fo_in : forall A (l out : list A), first_occurrences l out -> forall x, In x l <-> In x out.
Proof.
  intros A l out F. induction F as [|l out y F IH N|l out y F IH I]; intros x; [tauto| |].
  - rewrite !in_app_iff, IH. tauto.
  - rewrite in_app_iff, IH. split; [|tauto]. intros [H|[<-|[]]]; [exact H|now apply IH].
Qed.

(** Python's == on simple data is identity. *)
Lemma flat_plain : forall v, set_value v -> plain v.
Proof. intros v [->|[[s ->]|[[n ->]|[[b ->]|[[d ->]|[d [t ->]]]]]]]; constructor. Qed.
Lemma date_eqb_refl : forall d, date_eqb d d = true.
Proof. intros [y m d]. unfold date_eqb. cbn. now rewrite !N.eqb_refl. Qed.
Lemma time_eqb_refl : forall d, time_eqb d d = true.
Proof. intros [h m s u]. unfold time_eqb. cbn. now rewrite !N.eqb_refl. Qed.
Lemma flat_eq : forall r a b, set_value a -> set_value b ->
  (a = b /\ pyeq r a b = Ok true) \/ (a <> b /\ pyeq r a b = Ok false).
Proof.
  intros r a b A B. assert (T : exists x, pyeq r a b = Ok x).
  { destruct A as [->|[[s ->]|[[n ->]|[[bb ->]|[[d ->]|[d [t ->]]]]]]];
      destruct B as [->|[[s' ->]|[[n' ->]|[[b' ->]|[[d' ->]|[d' [t' ->]]]]]]]; cbn; eauto. }
  destruct T as [[] T]; [left|right]; split; try exact T.
  - eapply plain_eq; eauto using flat_plain.
  - intros <-. clear B. revert T. destruct A as [->|[[s ->]|[[n ->]|[[bb ->]|[[d ->]|[d [t ->]]]]]]]; cbn;
      rewrite ?seqb_refl, ?date_eqb_refl, ?time_eqb_refl; try discriminate.
    unfold num_eq. rewrite N.eqb_refl, Bool.eqb_reflx, orb_true_r. discriminate.
Qed.
Lemma name_flat : forall v, name_arg v -> set_value v.
Proof. intros v [[s ->]|[n ->]]; [right; left|right; right; left]; eauto. Qed.
Lemma alias_flat : forall v, alias_arg v -> set_value v.
Proof. intros v [[s ->]| ->]; [right; left; eauto|now left]. Qed.

(** ** Appending without duplicates *)
Section Unique.
  Context {A : Type} (inj : val * val -> A) (mk : val -> val -> res A) (eq : A -> A -> res bool) (P D : val * val -> Prop).
  Hypothesis mk_ok : forall p, P p -> mk (fst p) (snd p) = Ok (inj p).
  Hypothesis eq_ok : forall p q, D p -> D q ->
    (p = q /\ eq (inj p) (inj q) = Ok true) \/ (p <> q /\ eq (inj p) (inj q) = Ok false).
  Definition add_item (s : list A) (it : list val) : list A * outcome :=
    let (c, a) := nth2 it in commit s (do x <- mk c a; append_unique eq s x).
  Lemma any_eq : forall out p, Forall D out -> D p ->
    (In p out /\ anyM (fun x => eq x (inj p)) (map inj out) = Ok true) \/
    (~ In p out /\ anyM (fun x => eq x (inj p)) (map inj out) = Ok false).
  Proof.
    induction out as [|y out IH]; intros p F Dp; [right; split; [tauto|reflexivity]|]. inversion F; subst.
    cbn [map anyM]. destruct (eq_ok y p) as [[-> Q]|[N Q]]; auto.
    - left. split; [now left|]. rewrite Q. reflexivity.
    - rewrite Q. destruct (IH p) as [[I R]|[I R]]; auto.
      + left. split; [now right|]. exact R.
      + right. split; [intros [E|E]; auto|]. exact R.
  Qed.
  Lemma unique_items : forall ps r, accepted P ps r -> (forall p, In p ps -> ~ P p -> exists e, mk (fst p) (snd p) = Err e) ->
    forall l out, Forall D r -> Forall D out -> first_occurrences l out ->
    exists out', fst (foldE add_item (map inj out) (batches ps)) = map inj out' /\ Forall D out' /\ first_occurrences (l ++ r) out'.
  Proof.
    intros ps r Acc. induction Acc as [|p ps N|p ps r Pp Acc IH]; intros Bad l out Dr Do F.
    - exists out. rewrite app_nil_r. auto.
    - exists out. rewrite app_nil_r. split; [|auto]. destruct (Bad p) as [e B]; [now left|exact N|].
      cbn [batches map foldE]. unfold add_item at 1. cbn [nth2]. rewrite B. reflexivity.
    - inversion Dr; subst. cbn [batches map foldE]. unfold add_item at 1. cbn [nth2]. rewrite (mk_ok _ Pp). cbn [bind].
      unfold append_unique. destruct (any_eq out p) as [[I R]|[I R]]; auto; rewrite R; cbn [bind commit].
      + destruct (IH (fun x Hx => Bad x (or_intror Hx)) (l ++ [p]) out) as [o' [E [Do' F']]]; auto.
        { apply fo_again; [exact F|]. now apply (fo_in _ _ _ F). }
        exists o'. rewrite <- app_assoc in F'. auto.
      + destruct (IH (fun x Hx => Bad x (or_intror Hx)) (l ++ [p]) (out ++ [p])) as [o' [E [Do' F']]]; auto.
        { apply Forall_app. auto. }
        { apply fo_new; [exact F|]. rewrite (fo_in _ _ _ F). exact I. }
        exists o'. rewrite <- app_assoc in F'. rewrite map_app in E. auto.
  Qed.
End Unique.

(** ** Columns *)
Lemma check_name : forall v, check_type [TStr; TInt] v = true <-> name_arg v \/ is_sql v = true.
Proof.
  intros v. unfold check_type, name_arg. split.
  - intros H. destruct v; cbn in H; try discriminate; try (right; reflexivity); try (destruct k; discriminate); left; eauto.
  - intros [[[s ->]|[n ->]]|S]; [reflexivity|reflexivity|]. rewrite S, andb_false_r. reflexivity.
Qed.
Lemma check_alias : forall v, check_type [TStr; TNone] v = true <-> alias_arg v \/ is_sql v = true.
Proof.
  intros v. unfold check_type, alias_arg. split.
  - intros H. destruct v; cbn in H; try discriminate; try (right; reflexivity); try (destruct k; discriminate); left; eauto.
  - intros [[[s ->]| ->]|S]; [reflexivity|reflexivity|]. rewrite S, andb_false_r. reflexivity.
Qed.
Lemma mk_column_ok : forall p, column_ok p -> mk_column (fst p) (snd p) = Ok p.
Proof.
  intros [c a] [H1 H2]. cbn [fst snd] in *. apply check_name in H1. apply check_alias in H2. unfold mk_column. now rewrite H1, H2.
Qed.
Lemma mk_column_bad : forall p, ~ column_ok p -> exists e, mk_column (fst p) (snd p) = Err e.
Proof.
  intros [c a] N. unfold column_ok in N. cbn [fst snd] in *. rewrite <- check_name, <- check_alias in N. unfold mk_column.
  destruct (check_type [TStr; TInt] c); [|eexists; reflexivity]. destruct (check_type [TStr; TNone] a); [|eexists; reflexivity].
  exfalso. auto.
Qed.
Lemma accepted_all : forall P ps r, accepted P ps r -> Forall P r.
Proof. intros P ps r A. induction A; constructor; auto. Qed.
Definition col_data (p : val * val) : Prop := name_arg (fst p) /\ alias_arg (snd p).
Lemma column_data : forall r, Forall column_ok r -> data_items r -> Forall col_data r.
Proof.
  intros r F D. induction F as [|p r [H1 H2] F IH]; [constructor|]. inversion D as [|? ? [D1 D2] D3]; subst. constructor; [|auto].
  split; [destruct H1 as [H1|H1]|destruct H2 as [H2|H2]]; congruence || assumption.
Qed.
Lemma col_data_eq : forall r p q, col_data p -> col_data q ->
  (p = q /\ pair_eq (pyeq r) p q = Ok true) \/ (p <> q /\ pair_eq (pyeq r) p q = Ok false).
Proof.
  intros r [a b] [c d] [H1 H2] [H3 H4]. cbn [fst snd] in *. cbn [pair_eq].
  destruct (flat_eq r a c (name_flat _ H1) (name_flat _ H3)) as [[-> Q]|[N Q]]; rewrite Q.
  - destruct (flat_eq r b d (alias_flat _ H2) (alias_flat _ H4)) as [[-> Q']|[N Q']]; cbn; rewrite Q'; [left|right]; split; congruence.
  - right. split; [congruence|reflexivity].
Qed.
Lemma map_id' : forall A (l : list A), map (fun x => x) l = l.
Proof. intros. apply map_id. Qed.
Lemma columns_call : forall E l out a k r, keys_ok a k -> requests column_ok a k r -> data_items r ->
  Forall col_data out -> first_occurrences l out ->
  exists out', fst (columns_add (pure_world E) out a k) = out' /\ Forall col_data out' /\ first_occurrences (l ++ r) out'.
Proof.
  intros E l out a k r K R Dr Do F. unfold columns_add.
  destruct (alias_contract (pure_world E) a k K) as [[ps [A Q]]|[Q N]]; rewrite Q.
  - destruct R as [N|ps' r A' Acc]; [exfalso; eapply N; eauto|]. rewrite (alias_args_fun _ _ _ _ A' A) in Acc.
    destruct (unique_items (fun p => p) mk_column (pair_eq (py_eq E)) column_ok col_data mk_column_ok (col_data_eq (text E))
                ps r Acc (fun p _ => mk_column_bad p) l out) as [o [Ho [Do' Fo]]]; auto.
    { apply column_data; [eapply accepted_all; eauto|exact Dr]. }
    rewrite !map_id' in Ho. exists o. auto.
  - destruct R as [_|ps' r A' Acc]; [|exfalso; eapply N; eauto]. exists out. rewrite app_nil_r. auto.
Qed.
Lemma concat_snoc : forall A (l : list (list A)) x, List.concat (l ++ [x]) = List.concat l ++ x.
Proof. intros. rewrite concat_app. simpl. now rewrite app_nil_r. Qed.
Lemma Forall2_snoc : forall A B (R : A -> B -> Prop) l x m, Forall2 R (l ++ [x]) m ->
  exists m' y, m = m' ++ [y] /\ Forall2 R l m' /\ R x y.
Proof.
  intros A B R l x m F. apply Forall2_app_inv_l in F. destruct F as [m1 [m2 [F1 [F2 ->]]]].
  inversion F2 as [|? y ? ? R1 F3]; subst. inversion F3; subst. eauto.
Qed.
Lemma program_snoc : forall Op E (H : list (backend * Op)) b op,
  program E (H ++ [(b, op)]) = program E H ++ [(pure_world (with_be E b), op)].
Proof. intros. unfold program. now rewrite map_app. Qed.
Lemma columns_history : forall E H asked, columns_asked (map snd H) asked -> data_items (List.concat asked) ->
  let q := calls sel_step empty_select (program E H) in
  Forall col_data (s_cols q) /\ first_occurrences (List.concat asked) (s_cols q).
Proof.
  intros E H. cbn zeta. induction H as [|[b op] H IH] using rev_ind; intros asked A D.
  - inversion A; subst. split; [constructor|constructor].
  - rewrite map_app in A. apply Forall2_snoc in A. destruct A as [as' [r [-> [A R]]]].
    rewrite concat_snoc in D |- *. unfold data_items in D. apply Forall_app in D. destruct D as [D1 D2].
    destruct (IH as' A D1) as [I1 I2]. rewrite program_snoc, calls_snoc.
    set (q := calls sel_step empty_select (program E H)) in *. clearbody q. cbn [snd] in R.
    destruct op; try (subst r; rewrite app_nil_r; split; assumption). destruct R as [K R].
    destruct (columns_call (with_be E b) (List.concat as') (s_cols q) args kwds r K R D2 I1 I2) as [o [Ho [Do Fo]]].
    cbn [sel_step lift1 fst with_cols s_cols]. rewrite Ho. auto.
Qed.
(** Without duplicates, whatever the arguments. *)
Lemma anyM_false : forall A (f : A -> res bool) l, anyM f l = Ok false -> forall x, In x l -> f x = Ok false.
Proof.
  induction l as [|y l IH]; intros H x I; [destruct I|]. destruct I as [<-|I]; cbn [anyM] in H.
  - destruct (f y) as [[]|]; try discriminate; reflexivity.
  - destruct (f y) as [[]|]; try discriminate. now apply IH.
Qed.
Lemma ordpairs_snoc : forall A (R : A -> A -> Prop) l x, ForallOrdPairs R l -> Forall (fun y => R y x) l -> ForallOrdPairs R (l ++ [x]).
Proof.
  intros A R l x F. induction F as [|y l Fy F IH]; intros G; simpl; [constructor; constructor|]. inversion G; subst.
  constructor; [|auto]. apply Forall_app. auto.
Qed.
Lemma append_distinct : forall A (eq : A -> A -> res bool) l x l', ForallOrdPairs (fun p q => eq p q = Ok false) l ->
  append_unique eq l x = Ok l' -> ForallOrdPairs (fun p q => eq p q = Ok false) l'.
Proof.
  intros A eq l x l' F H. unfold append_unique in H. destruct (anyM _ l) as [[]|] eqn:Q; try discriminate; injection H as <-; [exact F|].
  apply ordpairs_snoc; [exact F|]. rewrite Forall_forall. intros y Hy. exact (anyM_false _ _ _ Q y Hy).
Qed.
Lemma foldE_inv : forall S A (f : S -> A -> S * outcome) (I : S -> Prop), (forall s x, I s -> I (fst (f s x))) ->
  forall l s, I s -> I (fst (foldE f s l)).
Proof.
  intros S A f I St l. induction l as [|x l IH]; intros s Is; [exact Is|]. cbn [foldE]. pose proof (St s x Is) as X.
  destruct (f s x) as [s' [u|e]]; [now apply IH|exact X].
Qed.
Lemma columns_distinct : forall E H, (forall wo, In wo H -> fst wo = pure_world E) ->
  ForallOrdPairs (fun p q => pair_eq (py_eq E) p q = Ok false) (s_cols (calls sel_step empty_select H)).
Proof.
  intros E H. induction H as [|[W op] H IH] using rev_ind; intros Hw; [constructor|].
  assert (W = pure_world E) as -> by (apply (Hw (W, op)); apply in_or_app; right; now left).
  assert (I : ForallOrdPairs (fun p q => pair_eq (py_eq E) p q = Ok false) (s_cols (calls sel_step empty_select H))).
  { apply IH. intros wo Hwo. apply Hw, in_or_app. now left. }
  rewrite calls_snoc. set (q := calls sel_step empty_select H) in *. clearbody q. destruct op; try exact I.
  cbn [sel_step lift1 fst with_cols s_cols]. unfold columns_add. destruct (parse_args _ _ _ _) as [items|e]; [|exact I].
  apply foldE_inv; [|exact I]. intros s it Is. destruct (nth2 it) as [c a]. rewrite commit_fst.
  destruct (mk_column c a) as [x|]; cbn [bind]; [|exact Is].
  destruct (append_unique (pair_eq (w_eq (pure_world E))) s x) eqn:Q; [|exact Is]. eapply append_distinct; eauto.
Qed.

(** ** Orders *)
Lemma sort_dir : forall E v, (exists d, direction (supper E) v d /\ mk_sort E v = Ok d) \/
  ((forall d, ~ direction (supper E) v d) /\ exists e, mk_sort E v = Err e).
Proof.
  intros E v. unfold mk_sort, direction. destruct (negb (check_type [TStr; TInt; TNone] v)) eqn:C.
  { right. split; [|eexists; reflexivity]. intros d [[-> _]|[s [-> _]]]; discriminate. }
  destruct v; try (right; split; [intros dd [[Q _]|[s' [Q _]]]; discriminate|eexists; reflexivity]).
  - left. exists Asc. split; [left; auto|reflexivity].
  - destruct (seqb (supper E s) (lit "ASC")) eqn:A; [|destruct (seqb (supper E s) (lit "DESC")) eqn:B].
    + left. exists Asc. split; [|reflexivity]. right. exists s. apply seqb_eq in A. auto.
    + left. exists Desc. split; [|reflexivity]. right. exists s. apply seqb_eq in B. auto.
    + right. split; [|eexists; reflexivity]. intros d [[Q _]|[s' [Q [[U _]|[U _]]]]]; try discriminate; injection Q as <-;
        rewrite U in *; rewrite seqb_refl in *; discriminate.
Qed.
Lemma direction_fun : forall up v d d', direction up v d -> direction up v d' -> d = d'.
Proof.
  intros up v d d' [[-> ->]|[s [-> H]]] [[Q ->]|[s' [Q H']]]; try discriminate; [reflexivity|]. injection Q as <-.
  destruct H as [[H ->]|[H ->]], H' as [[H' ->]|[H' ->]]; try reflexivity; rewrite H in H'; discriminate.
Qed.
Lemma update_found : forall E os c v, name_arg c -> Forall (fun o => name_arg (fst o)) os ->
  (~ In c (map fst os) /\ order_update (pure_world E) os c v = Ok None) \/
  (exists pre s post, os = pre ++ (c, s) :: post /\ ~ In c (map fst pre) /\
     order_update (pure_world E) os c v = (do d <- mk_sort E v; Ok (Some (pre ++ (c, d) :: post)))).
Proof.
  intros E os c v Nc. induction os as [|[c' s] os IH]; intros F; [left; split; [tauto|reflexivity]|]. inversion F; subst. cbn [fst] in *.
  cbn [order_update]. change (w_eq (pure_world E) c' c) with (pyeq (text E) c' c). change (w_env (pure_world E)) with E.
  destruct (flat_eq (text E) c' c (name_flat _ H1) (name_flat _ Nc)) as [[-> Q]|[N Q]]; rewrite Q.
  - right. exists [], s, os. split; [reflexivity|]. split; [tauto|reflexivity].
  - destruct (IH H2) as [[I R]|[pre [s' [post [-> [I R]]]]]]; rewrite R.
    + left. split; [intros [E1|E1]; auto|reflexivity].
    + right. exists ((c', s) :: pre), s', post. split; [reflexivity|]. split; [intros [E1|E1]; auto|].
      destruct (mk_sort E v); reflexivity.
Qed.
Lemma last_dir_other : forall up l c d c' v, c' <> c -> last_direction up l c d -> last_direction up (l ++ [(c', v)]) c d.
Proof.
  intros up l c d c' v N [pre [w [post [-> [I D]]]]]. exists pre, w, (post ++ [(c', v)]). split; [now rewrite <- app_assoc|].
  split; [|exact D]. rewrite map_app, in_app_iff. intros [H|[H|[]]]; auto.
Qed.
Lemma last_dir_new : forall up l c v d, direction up v d -> last_direction up (l ++ [(c, v)]) c d.
Proof. intros. exists l, v, []. split; [reflexivity|]. split; [tauto|assumption]. Qed.
Lemma nodup_snoc : forall A (l : list A) x, NoDup l -> ~ In x l -> NoDup (l ++ [x]).
Proof.
  induction l as [|y l IH]; intros x N I; simpl; [constructor; [tauto|constructor]|]. inversion N; subst. constructor.
  - rewrite in_app_iff. intros [H|[H|[]]]; [auto|]. subst. apply I. now left.
  - apply IH; [assumption|]. intros H. apply I. now right.
Qed.
Lemma fo_nodup : forall A (l out : list A), first_occurrences l out -> NoDup out.
Proof.
  intros A l out F. induction F as [|l out x F IH N|]; [constructor| |assumption].
  apply nodup_snoc; [exact IH|]. now rewrite <- (fo_in _ _ _ F).
Qed.
Definition add_order (E : env) (st : list (val * sortd)) (it : list val) : list (val * sortd) * outcome :=
  let (c, sort) := nth2 it in
  commit st (do o <- order_update (pure_world E) st c sort;
             match o with
             | Some st' => Ok st'
             | None =>
                 if negb (check_type [TStr; TInt] c) then Err EInvalidArgument
                 else do s <- mk_sort (w_env (pure_world E)) sort; Ok (st ++ [(c, s)])
             end).
Lemma order_items : forall E ps r, accepted (fun p => exists d, direction (supper E) (snd p) d) ps r ->
  Forall (fun p => name_arg (fst p)) ps ->
  forall l out, Forall (fun o => name_arg (fst o)) out -> ordered_list (supper E) l out ->
  let out' := fst (foldE (add_order E) out (batches ps)) in
  Forall (fun o => name_arg (fst o)) out' /\ ordered_list (supper E) (l ++ r) out'.
Proof.
  intros E ps r Acc. cbn zeta. induction Acc as [|p ps N|p ps r Pp Acc IH]; intros Np l out No O.
  - rewrite app_nil_r. auto.
  - rewrite app_nil_r. inversion Np; subst. destruct p as [c v]. cbn [fst snd] in *. cbn [batches map foldE]. unfold add_order at 1 3. cbn [nth2 fst snd].
    destruct (sort_dir E v) as [[d [D _]]|[_ [e Q]]]; [exfalso; apply N; eauto|].
    destruct (update_found E out c v H1 No) as [[I R]|[pre [s [post [-> [I R]]]]]]; rewrite R.
    + cbn [bind]. assert (C : check_type [TStr; TInt] c = true) by (apply check_name; auto). rewrite C. cbn [negb pure_world w_env]. rewrite Q. auto.
    + rewrite Q. auto.
  - inversion Np; subst. destruct p as [c v]. cbn [fst snd] in *. destruct Pp as [d D]. destruct O as [F L].
    assert (Q : mk_sort E v = Ok d).
    { destruct (sort_dir E v) as [[d' [D' Q]]|[N _]]; [|exfalso; eapply N; eauto]. now rewrite (direction_fun _ _ _ _ D D'). }
    replace (l ++ (c, v) :: r) with ((l ++ [(c, v)]) ++ r) by (now rewrite <- app_assoc).
    cbn [batches map foldE]. unfold add_order at 1 3. cbn [nth2 fst snd].
    destruct (update_found E out c v H1 No) as [[I R]|[pre [s [post [-> [I R]]]]]]; rewrite R.
    + cbn [bind]. assert (C : check_type [TStr; TInt] c = true) by (apply check_name; auto). rewrite C. cbn [negb pure_world w_env]. rewrite Q.
      cbn [bind commit]. apply IH; [assumption| |].
      * apply Forall_app. split; [exact No|]. constructor; [exact H1|constructor].
      * split.
        -- rewrite !map_app. apply fo_new; [exact F|]. rewrite (fo_in _ _ _ F). exact I.
        -- intros c' d' J. apply in_app_iff in J. destruct J as [J|[J|[]]].
           ++ apply last_dir_other; [|auto]. intros ->. apply I. apply in_map_iff. exists (c', d'). auto.
           ++ injection J as <- <-. now apply last_dir_new.
    + rewrite Q. cbn [bind commit]. pose proof (fo_nodup _ _ _ F) as ND.
      assert (M : map fst (pre ++ (c, d) :: post) = map fst (pre ++ (c, s) :: post)) by (rewrite !map_app; reflexivity).
      apply IH; [assumption| |].
      * apply Forall_app in No. destruct No as [N1 N2]. inversion N2; subst. apply Forall_app. split; [exact N1|]. constructor; assumption.
      * split.
        -- rewrite M, map_app. apply fo_again; [exact F|]. cbn [map fst]. rewrite (fo_in _ _ _ F), map_app, in_app_iff. right. now left.
        -- intros c' d' J. apply in_app_iff in J. rewrite map_app in ND. cbn [map fst] in ND.
           pose proof (NoDup_remove_2 _ _ _ ND) as ND'. rewrite in_app_iff in ND'. destruct J as [J|[J|J]].
           ++ apply last_dir_other; [|apply L, in_or_app; now left]. intros ->. apply ND'. left. apply in_map_iff. exists (c', d'). auto.
           ++ injection J as <- <-. now apply last_dir_new.
           ++ apply last_dir_other; [|apply L, in_or_app; right; now right]. intros ->. apply ND'. right. apply in_map_iff. exists (c', d'). auto.
Qed.
Lemma order_call_ok : forall E l out a k r, order_call (supper E) a k r ->
  Forall (fun o => name_arg (fst o)) out -> ordered_list (supper E) l out ->
  let out' := fst (orders_add (pure_world E) out a k) in
  Forall (fun o => name_arg (fst o)) out' /\ ordered_list (supper E) (l ++ r) out'.
Proof.
  intros E l out a k r [K R] No O. unfold orders_add. cbn zeta.
  destruct (alias_contract (pure_world E) a k K) as [[ps [A Q]]|[Q N]]; rewrite Q.
  - destruct R as [[N _]|[ps' [A' [Np Acc]]]]; [exfalso; eapply N; eauto|]. rewrite (alias_args_fun _ _ _ _ A' A) in *.
    exact (order_items E ps r Acc Np l out No O).
  - destruct R as [[_ ->]|[ps' [A' _]]]; [|exfalso; eapply N; eauto]. rewrite app_nil_r. auto.
Qed.
Lemma supper_be : forall E b, supper (with_be E b) = supper E.
Proof. reflexivity. Qed.
Lemma order_history : forall E H asked, order_asked (supper E) (map snd H) asked ->
  let q := calls sel_step empty_select (program E H) in
  Forall (fun o => name_arg (fst o)) (s_order q) /\ ordered_list (supper E) (List.concat asked) (s_order q).
Proof.
  intros E H. cbn zeta. induction H as [|[b op] H IH] using rev_ind; intros asked A.
  - inversion A; subst. split; [constructor|]. split; [constructor|intros ? ? []].
  - rewrite map_app in A. apply Forall2_snoc in A. destruct A as [as' [r [-> [A R]]]].
    rewrite concat_snoc. destruct (IH as' A) as [I1 I2]. rewrite program_snoc, calls_snoc.
    set (q := calls sel_step empty_select (program E H)) in *. clearbody q. cbn [snd] in R.
    destruct op; try (subst r; rewrite app_nil_r; split; assumption).
    cbn [sel_step lift1 fst with_order s_order]. rewrite <- (supper_be E b). apply order_call_ok; assumption.
Qed.
Lemma group_history : forall E H asked, group_asked (supper E) (map snd H) asked ->
  let q := calls sel_step empty_select (program E H) in
  Forall (fun o => name_arg (fst o)) (s_group q) /\ ordered_list (supper E) (List.concat asked) (s_group q).
Proof.
  intros E H. cbn zeta. induction H as [|[b op] H IH] using rev_ind; intros asked A.
  - inversion A; subst. split; [constructor|]. split; [constructor|intros ? ? []].
  - rewrite map_app in A. apply Forall2_snoc in A. destruct A as [as' [r [-> [A R]]]].
    rewrite concat_snoc. destruct (IH as' A) as [I1 I2]. rewrite program_snoc, calls_snoc.
    set (q := calls sel_step empty_select (program E H)) in *. clearbody q. cbn [snd] in R.
    destruct op; try (subst r; rewrite app_nil_r; split; assumption).
    cbn [sel_step lift1 fst with_group s_group]. rewrite <- (supper_be E b). apply order_call_ok; assumption.
Qed.

(** ** SET *)
Lemma check_str : forall v, check_type [TStr] v = true <-> (exists s, v = VStr s) \/ is_sql v = true.
Proof.
  intros v. unfold check_type. split.
  - intros H. destruct v; cbn in H; try discriminate; try (right; reflexivity); try (destruct k; discriminate); left; eauto.
  - intros [[s ->]|S]; [reflexivity|]. rewrite S, andb_false_r. reflexivity.
Qed.
Definition the_value (p : val * val) : val := VValue (fst p) (snd p).
Lemma mk_value_ok : forall p, set_item_ok p -> mk_value (fst p) (snd p) = Ok (the_value p).
Proof.
  intros [c v] [[s Hc] Hv]. cbn [fst snd] in *. subst c. unfold mk_value.
  destruct Hv as [->|[[s' ->]|[[n ->]|[[b ->]|[[d ->]|[d [t ->]]]]]]]; reflexivity.
Qed.
Lemma mk_value_bad : forall p, set_data p -> ~ set_item_ok p -> exists e, mk_value (fst p) (snd p) = Err e.
Proof.
  intros [c v] [S1 [S2 S3]] N. cbn [fst snd] in *. unfold mk_value.
  destruct (check_type [TStr] c) eqn:C; [|eexists; reflexivity]. apply check_str in C. destruct C as [C|C]; [|congruence].
  destruct (check_type value_types v) eqn:V; [|eexists; reflexivity]. exfalso. apply N. split; [exact C|]. cbn [snd].
  unfold check_type in V. rewrite S2 in V. cbn [negb] in V. rewrite andb_true_r in V.
  unfold set_value. unfold inexact in S3. destruct v; try discriminate; eauto 8; try (exfalso; eauto 6; fail).
  - destruct k; discriminate.
Qed.
Lemma value_eq : forall r p q, set_item_ok p -> set_item_ok q ->
  (p = q /\ pyeq r (the_value p) (the_value q) = Ok true) \/ (p <> q /\ pyeq r (the_value p) (the_value q) = Ok false).
Proof.
  intros r [c v] [c' v'] [[s Hc] H2] [[s' Hc'] H4]. cbn [fst snd] in *. subst c c'. unfold the_value. cbn [fst snd].
  change (pyeq r (VValue (VStr s) v) (VValue (VStr s') v')) with (rand (pyeq r (VStr s) (VStr s')) (pyeq r v v')).
  assert (A : forall x, set_value (VStr x)) by (intros; right; left; eauto).
  destruct (flat_eq r (VStr s) (VStr s') (A s) (A s')) as [[E Q]|[N Q]]; rewrite Q.
  - injection E as <-. destruct (flat_eq r v v' H2 H4) as [[-> Q']|[N Q']]; cbn; rewrite Q'; [left|right]; split; congruence.
  - right. split; [congruence|reflexivity].
Qed.
Lemma set_call_ok : forall E l out a k r, keys_ok a k -> (forall x, a = [x] -> is_sql x = false) -> set_call a k r ->
  Forall set_item_ok out -> first_occurrences l out ->
  exists out', fst (values_set (pure_world E) (map the_value out) a k) = map the_value out' /\ Forall set_item_ok out' /\ first_occurrences (l ++ r) out'.
Proof.
  intros E l out a k r K NS R Do F.
  assert (V : values_set (pure_world E) (map the_value out) a k =
    match parse_args (pure_world E) pair_opts a k with
    | Err e => (map the_value out, Err e)
    | Ok items => foldE (add_item mk_value (py_eq E)) (map the_value out) items end).
  { unfold values_set. destruct a as [|x [|y a]]; try reflexivity. destruct k; [|reflexivity]. now rewrite (NS x eq_refl). }
  rewrite V. clear V. destruct (pair_contract (pure_world E) a k K) as [[ps [A Q]]|[Q N]]; rewrite Q.
  - destruct R as [N|ps' r A' SD Acc]; [exfalso; eapply N; eauto|]. rewrite (pair_args_fun _ _ _ _ A' A) in *.
    refine (unique_items the_value mk_value (py_eq E) set_item_ok set_item_ok mk_value_ok (value_eq (text E)) ps r Acc _ l out _ Do F).
    + intros p Hp. apply mk_value_bad. rewrite Forall_forall in SD. auto.
    + eapply accepted_all; eauto.
  - destruct R as [_|ps' r A' SD Acc]; [|exfalso; eapply N; eauto]. exists out. rewrite app_nil_r. auto.
Qed.
Lemma set_history : forall E H asked, set_asked (map snd H) asked ->
  exists out, u_vals (calls upd_step empty_update (program E H)) = map (fun p => VValue (fst p) (snd p)) out /\
    Forall set_item_ok out /\ first_occurrences (List.concat asked) out.
Proof.
  intros E H. induction H as [|[b op] H IH] using rev_ind; intros asked A.
  - inversion A; subst. exists []. repeat constructor.
  - rewrite map_app in A. apply Forall2_snoc in A. destruct A as [as' [r [-> [A R]]]].
    rewrite concat_snoc. destruct (IH as' A) as [out [I1 [I2 I3]]]. rewrite program_snoc, calls_snoc.
    destruct (calls upd_step empty_update (program E H)) as [ig tabs vals wh al]. cbn [u_vals] in I1. subst vals. cbn [snd] in R.
    destruct op; try (subst r; rewrite app_nil_r; exists out; split; [reflexivity|split; assumption]).
    destruct R as [K [NS R]]. cbn [upd_step lift1 fst u_vals]. exact (set_call_ok (with_be E b) _ out args kwds r K NS R I2 I3).
Qed.
(** The last assignment, when none comes back. *)
Lemma split_last : forall (l : list (val * val)) c v, assigned l c v -> In (c, v) l.
Proof. intros l c v [pre [post [-> _]]]. apply in_or_app. right. now left. Qed.
Lemma never_back_prefix : forall l x c, never_back (l ++ [x]) c -> never_back l c.
Proof.
  intros l x c N v pre mid post E w I. apply (N v pre mid (post ++ [x])); [|exact I]. rewrite E. rewrite <- !app_assoc. simpl. now rewrite <- app_assoc.
Qed.
Lemma assigned_snoc : forall l c' v' c v, assigned (l ++ [(c', v')]) c v <-> (c' = c /\ v' = v) \/ (c' <> c /\ assigned l c v).
Proof.
  intros l c' v' c v. split.
  - intros [pre [post [E N]]]. destruct post as [|y post] using rev_ind.
    + left. apply app_inj_tail in E. destruct E as [_ E]. injection E as -> ->. auto.
    + clear IHpost. right. change (pre ++ (c, v) :: post ++ [y]) with (pre ++ ((c, v) :: post) ++ [y]) in E. rewrite app_assoc in E.
      apply app_inj_tail in E. destruct E as [E <-]. rewrite map_app, in_app_iff in N. split.
      * intros ->. apply N. right. now left.
      * exists pre, post. split; [exact E|tauto].
  - intros [[-> ->]|[N [pre [post [-> I]]]]].
    + exists l, []. split; [reflexivity|tauto].
    + exists pre, (post ++ [(c', v')]). split; [now rewrite <- app_assoc|]. rewrite map_app, in_app_iff. intros [H|[H|[]]]; auto.
Qed.
Lemma assigned_fun : forall l c v w, assigned l c v -> assigned l c w -> v = w.
Proof.
  induction l as [|[c' v'] l IH] using rev_ind; intros c v w H1 H2.
  - destruct H1 as [pre [post [E _]]]. destruct pre; discriminate.
  - rewrite assigned_snoc in H1, H2. destruct H1 as [[-> ->]|[N1 H1]], H2 as [[? ?]|[N2 H2]]; try congruence. eapply IH; eauto.
Qed.
Definition text_keys (l : list (val * val)) : Prop := Forall (fun p => exists s, fst p = VStr s) l.
Lemma key_dec : forall c c', (exists s, c = VStr s) -> c = c' \/ c <> c'.
Proof.
  intros c c' [s ->]. destruct c'; try (right; discriminate). destruct (seqb s s0) eqn:Q; [left; f_equal; now apply seqb_eq|].
  right. intros E. injection E as <-. rewrite seqb_refl in Q. discriminate.
Qed.
Lemma last_again : forall pre mid c v, text_keys mid -> (forall w, In (c, w) mid -> w = v) -> assigned (pre ++ (c, v) :: mid) c v.
Proof.
  intros pre mid c v. induction mid as [|[c' w] mid IH] using rev_ind; intros K M.
  - exists pre, []. split; [reflexivity|tauto].
  - change (pre ++ (c, v) :: mid ++ [(c', w)]) with (pre ++ ((c, v) :: mid) ++ [(c', w)]). rewrite app_assoc, assigned_snoc.
    unfold text_keys in K. apply Forall_app in K. destruct K as [K1 K2]. inversion K2; subst.
    destruct (key_dec c' c) as [->|D]; [assumption| |].
    + left. split; [reflexivity|]. apply M, in_or_app. right. now left.
    + right. split; [exact D|]. apply IH; [exact K1|]. intros x Hx. apply M, in_or_app. now left.
Qed.
Lemma never_back_wins : forall l out, first_occurrences l out -> text_keys l ->
  forall c v, never_back l c -> assigned l c v -> assigned out c v.
Proof.
  intros l out F. induction F as [|l out [c' v'] F IH N|l out [c' v'] F IH I]; intros K c v NB A; [exact A| |];
    unfold text_keys in K; apply Forall_app in K; destruct K as [K1 K2].
  - rewrite assigned_snoc in A |- *. destruct A as [A|[D A]]; [now left|]. right. split; [exact D|].
    apply IH; [exact K1|eapply never_back_prefix; eauto|exact A].
  - apply IH; [exact K1|eapply never_back_prefix; eauto|]. rewrite assigned_snoc in A. destruct A as [[-> ->]|[D A]]; [|exact A].
    apply in_split in I. destruct I as [pre [mid ->]]. apply last_again.
    + apply Forall_app in K1. destruct K1 as [_ K1]. now inversion K1.
    + apply (NB v pre mid []). rewrite <- app_assoc. reflexivity.
Qed.
Lemma newest_new : forall l c' v' c v, (exists s, c' = VStr s) -> ~ In (c', v') l ->
  newest (l ++ [(c', v')]) c v <-> (c' = c /\ v' = v) \/ (c' <> c /\ newest l c v).
Proof.
  intros l c' v' c v K N. split.
  - intros [pre [post [Q [P W]]]]. destruct post as [|y post] using rev_ind.
    + left. apply app_inj_tail in Q. destruct Q as [_ Q]. injection Q as -> ->. auto.
    + clear IHpost. right. change (pre ++ (c, v) :: post ++ [y]) with (pre ++ ((c, v) :: post) ++ [y]) in Q. rewrite app_assoc in Q.
      apply app_inj_tail in Q. destruct Q as [-> <-]. split.
      * intros ->. apply N. assert (G : In (c, v') (pre ++ [(c, v)])) by (apply W, in_or_app; right; now left). rewrite in_app_iff in *. cbn [In] in *. tauto.
      * exists pre, post. split; [reflexivity|]. split; [exact P|]. intros w Hw. apply W, in_or_app. now left.
  - intros [[-> ->]|[D [pre [post [-> [P W]]]]]].
    + exists l, []. split; [reflexivity|]. split; [exact N|]. intros w [].
    + exists pre, (post ++ [(c', v')]). split; [now rewrite <- app_assoc|]. split; [exact P|]. intros w Hw. apply in_app_or in Hw as [Hw|[Hw|[]]]; [now apply W|congruence].
Qed.
Lemma newest_again : forall l x c v, In x l -> newest (l ++ [x]) c v <-> newest l c v.
Proof.
  intros l x c v I. split.
  - intros [pre [post [Q [P W]]]]. destruct post as [|y post] using rev_ind.
    + apply app_inj_tail in Q. destruct Q as [-> ->]. contradiction.
    + clear IHpost. change (pre ++ (c, v) :: post ++ [y]) with (pre ++ ((c, v) :: post) ++ [y]) in Q. rewrite app_assoc in Q.
      apply app_inj_tail in Q. destruct Q as [-> <-]. exists pre, post. split; [reflexivity|]. split; [exact P|]. intros w Hw. apply W, in_or_app. now left.
  - intros [pre [post [-> [P W]]]]. exists pre, (post ++ [x]). split; [now rewrite <- app_assoc|]. split; [exact P|].
    intros w Hw. apply in_app_or in Hw as [Hw|[->|[]]]; [now apply W|]. apply in_app_or in I as [I|[I|I]]; [apply in_or_app; now left| |now apply W].
    apply in_or_app. right. now left.
Qed.
Lemma newest_wins : forall l out, first_occurrences l out -> text_keys l -> forall c v, assigned out c v <-> newest l c v.
Proof.
  intros l out F. induction F as [|l out [c' v'] F IH N|l out [c' v'] F IH I]; intros K c v.
  - split; [intros [pre [post [Q _]]]|intros [pre [post [Q _]]]]; destruct pre; discriminate.
  - unfold text_keys in K. apply Forall_app in K as [K1 K2]. inversion K2; subst. rewrite assigned_snoc, newest_new by assumption. now rewrite (IH K1).
  - unfold text_keys in K. apply Forall_app in K as [K1 K2]. rewrite newest_again by exact I. now apply IH.
Qed.
Lemma set_last_wins : forall E H asked, set_asked (map snd H) asked ->
  exists out, u_vals (calls upd_step empty_update (program E H)) = map (fun p => VValue (fst p) (snd p)) out /\
    first_occurrences (List.concat asked) out /\
    (forall c v, assigned out c v <-> newest (List.concat asked) c v) /\
    forall c v, never_back (List.concat asked) c -> assigned (List.concat asked) c v -> assigned out c v.
Proof.
  intros E H asked A. destruct (set_history E H asked A) as [out [H1 [H2 H3]]]. exists out. split; [exact H1|]. split; [exact H3|].
  assert (K : text_keys (List.concat asked)).
  { unfold text_keys. rewrite Forall_forall in *. intros p Hp. apply (fo_in _ _ _ H3) in Hp. now destruct (H2 p Hp). }
  split; [now apply newest_wins|now apply never_back_wins].
Qed.

(** ** Independence of the clauses *)
Lemma proj_calls : forall Q Op A (step : world -> Q -> Op -> Q * outcome) (pi : Q -> A) (b : world * Op -> bool),
  (forall W q q' op, b (W, op) = true -> pi q = pi q' -> pi (fst (step W q op)) = pi (fst (step W q' op))) ->
  (forall W q op, b (W, op) = false -> pi (fst (step W q op)) = pi q) ->
  forall H q q', pi q = pi q' -> pi (calls step q H) = pi (calls step q' (filter b H)).
Proof.
  intros Q Op A step pi b S1 S2 H. induction H as [|[W op] H IH]; intros q q' E; [exact E|]. cbn [filter].
  destruct (b (W, op)) eqn:B; cbn [calls fold_left fst snd].
  - apply IH. auto.
  - apply IH. now rewrite S2.
Qed.
Lemma clauses_independent : forall H H' q, same_calls H H' -> calls sel_step q H = calls sel_step q H'.
Proof.
  intros H H' q S.
  assert (P : forall A (pi : selq val -> A) c,
    (forall W q q' op, cn_eqb (clause_of op) c = true -> pi q = pi q' -> pi (fst (sel_step W q op)) = pi (fst (sel_step W q' op))) ->
    (forall W q op, cn_eqb (clause_of op) c = false -> pi (fst (sel_step W q op)) = pi q) ->
    pi (calls sel_step q H) = pi (calls sel_step q H')).
  { intros A pi c S1 S2. etransitivity; [|symmetry].
    - exact (proj_calls _ _ _ sel_step pi (fun wo => cn_eqb (clause_of (snd wo)) c) S1 S2 H q q eq_refl).
    - rewrite (S c). exact (proj_calls _ _ _ sel_step pi (fun wo => cn_eqb (clause_of (snd wo)) c) S1 S2 H' q q eq_refl). }
  assert (X : forall a b : selq val, s_opts a = s_opts b -> s_cols a = s_cols b -> s_tabs a = s_tabs b -> s_where a = s_where b ->
    s_group a = s_group b -> s_having a = s_having b -> s_order a = s_order b -> s_limit a = s_limit b -> s_out a = s_out b ->
    s_forupd a = s_forupd b -> a = b).
  { intros [] []. cbn. intros. subst. reflexivity. }
  apply X.
  1: apply (P _ s_opts CnOptions). 3: apply (P _ s_cols CnColumns). 5: apply (P _ s_tabs CnTables).
  7: apply (P _ s_where CnWhere). 9: apply (P _ s_group CnGroup). 11: apply (P _ s_having CnHaving).
  13: apply (P _ s_order CnOrder). 15: apply (P _ s_limit CnLimit). 17: apply (P _ s_out CnOutfile).
  19: apply (P _ s_forupd CnLock).
  all: first [intros W q1 q2 op B E; destruct op; try discriminate B;
      cbn [sel_step lift1 fst with_cols with_tabs with_where with_group with_having with_order with_limit with_out with_opts with_forupd
           s_opts s_cols s_tabs s_where s_group s_having s_order s_limit s_out s_forupd]; rewrite ?E; reflexivity
    |intros W q1 op B; destruct op; try discriminate B; reflexivity].
Qed.

(** ** Joins *)
Lemma upd_last_snoc : forall A B (f : A -> A * B) l x, upd_last f (l ++ [x]) = Some (l ++ [fst (f x)], snd (f x)).
Proof.
  intros A B f l x. induction l as [|y l IH]; [simpl; destruct (f x); reflexivity|].
  change ((y :: l) ++ [x]) with (y :: (l ++ [x])). cbn [upd_last]. rewrite IH. destruct l; reflexivity.
Qed.
Lemma check_alias2 : forall v, check_type [TNone; TStr] v = true <-> alias_arg v \/ is_sql v = true.
Proof.
  intros v. unfold check_type, alias_arg. split.
  - intros H. destruct v; cbn in H; try discriminate; try (right; reflexivity); try (destruct k; discriminate); left; eauto.
  - intros [[[s ->]| ->]|S]; [reflexivity|reflexivity|]. rewrite S, andb_false_r. reflexivity.
Qed.
Lemma mk_table_ok : forall n a x, mk_table n a = Ok x <-> table_ok_ n a /\ x = (n, a).
Proof.
  intros n a x. unfold mk_table, table_ok_. rewrite <- check_str, <- check_alias2.
  destruct (check_type [TStr] n), (check_type [TNone; TStr] a); cbn [negb]; split; try discriminate; try (intros [[? ?] ?]; discriminate).
  - intros H. injection H as <-. auto.
  - intros [_ ->]. reflexivity.
Qed.
Lemma target_ok : forall W arg x, join_target W arg = Ok x <-> join_arg arg (fst x) (snd x) /\ table_ok_ (fst x) (snd x).
Proof.
  intros W arg [n a]. cbn [fst snd]. split.
  - intros H. destruct arg; cbn [join_target] in H; try (destruct (w_str _ _); discriminate).
    + apply mk_table_ok in H. destruct H as [T H]. injection H as -> ->. split; [constructor|exact T].
    + destruct k; try (destruct (w_str _ _); discriminate); destruct l as [|u [|v [|]]]; try (destruct (w_str _ _); discriminate);
        apply mk_table_ok in H; destruct H as [T H]; injection H as -> ->; (split; [apply ja_pair; (now left) || (now right)|exact T]).
    + destruct l as [|[u v] [|]]; try (destruct (w_str _ _); discriminate).
      apply mk_table_ok in H; destruct H as [T H]; injection H as -> ->. split; [apply ja_dict|exact T].
  - intros [J T]. destruct J as [s|v n a [->| ->]|n a]; cbn [join_target]; now apply mk_table_ok.
Qed.
Lemma join_call : forall W ty ts n a js arg ts', tables_join W ty (ts ++ [MkTable n a js]) arg = (ts', Ok tt) <->
  (ty = JFull -> supports_full_join (e_be (w_env W)) = true) /\
  exists n' a', join_arg arg n' a' /\ table_ok_ n' a' /\ ts' = ts ++ [MkTable n a (js ++ [MkJoin ty n' a' []])].
Proof.
  intros W ty ts n a js arg ts'.
  assert (X : on_last_table (table_join W ty arg) (ts ++ [MkTable n a js]) = (ts', Ok tt) <->
    exists n' a', join_arg arg n' a' /\ table_ok_ n' a' /\ ts' = ts ++ [MkTable n a (js ++ [MkJoin ty n' a' []])]).
  { unfold on_last_table. rewrite upd_last_snoc. unfold table_join. cbn [tb_name tb_alias tb_joins].
    pose proof (target_ok W arg) as T. destruct (join_target W arg) as [[n' a']|e]; cbn [bind commit fst snd]; split.
    - intros H. injection H as <-. destruct (T (n', a')) as [T1 _]. destruct (T1 eq_refl) as [J K]. exists n', a'. auto.
    - intros [n2 [a2 [J [K ->]]]]. destruct (T (n2, a2)) as [_ T2]. specialize (T2 (conj J K)). injection T2 as -> ->. reflexivity.
    - discriminate.
    - intros [n2 [a2 [J [K ->]]]]. destruct (T (n2, a2)) as [_ T2]. specialize (T2 (conj J K)). discriminate. }
  unfold tables_join. destruct ty; try (rewrite X; split; [intros H; split; [discriminate|exact H]|tauto]).
  destruct (supports_full_join _); [rewrite X; tauto|]. split; [discriminate|]. intros [H _]. discriminate (H eq_refl).
Qed.
Lemma on_call : forall W ts n a js ty n' a' ons args kwds,
  tables_on W (ts ++ [MkTable n a (js ++ [MkJoin ty n' a' ons])]) args kwds =
  let (ons', o) := conds_where W KOn ons args kwds in (ts ++ [MkTable n a (js ++ [MkJoin ty n' a' ons'])], o).
Proof.
  intros. unfold tables_on, on_last_table. rewrite upd_last_snoc. unfold table_on. cbn [tb_joins tb_name tb_alias]. rewrite upd_last_snoc.
  cbn [j_ons j_type j_name j_alias]. destruct (conds_where W KOn ons args kwds) as [ons' o]. reflexivity.
Qed.
Lemma on_no_join : forall W ts n a args kwds,
  tables_on W (ts ++ [MkTable n a []]) args kwds = (ts ++ [MkTable n a []], Err EInvalidQuery).
Proof. intros. unfold tables_on, on_last_table. rewrite upd_last_snoc. reflexivity. Qed.
Lemma join_no_table : forall W ty arg, tables_join W ty [] arg = ([], Err EInvalidQuery).
Proof. intros W [] arg; try reflexivity. unfold tables_join. destruct (supports_full_join _); reflexivity. Qed.

(** *** merged *)
Lemma parted_in : forall A (f : A -> res bool) l a b, parted f l a b -> forall x, In x l <-> In x a \/ In x b.
Proof. intros A f l a b P. induction P; intros y; simpl; [tauto| |]; rewrite IHP; tauto. Qed.
Lemma parted_yes_all : forall A (f : A -> res bool) l a b, parted f l a b -> forall x, In x a -> f x = Ok true.
Proof. intros A f l a b P. induction P; intros y I; [destruct I| |auto]. destruct I as [<-|I]; auto. Qed.
Definition same_content (a b : join val) : Prop := j_name a = j_name b /\ j_alias a = j_alias b /\ j_ons a = j_ons b.
Lemma merged_keeps : forall E js ms, merged E js ms ->
  forall j, In j js -> exists m h, In m ms /\ In h js /\ same_content m h /\ (h = j \/ join_equal E h j = Ok true).
Proof.
  intros E js ms M. induction M as [|j l tw ot out rest P S M IH]; intros x I; [destruct I|].
  assert (HD : exists m, In m out /\ same_content m j).
  { destruct S; [exists j|eexists|exists j|exists j]; (split; [now left|repeat split]). }
  destruct HD as [m [Im Sm]]. destruct I as [<-|I].
  - exists m, j. split; [apply in_or_app; now left|]. split; [now left|]. auto.
  - apply (parted_in _ _ _ _ _ P) in I. destruct I as [I|I].
    + exists m, j. split; [apply in_or_app; now left|]. split; [now left|]. split; [exact Sm|]. right. eapply parted_yes_all; eauto.
    + destruct (IH x I) as [m' [h [I1 [I2 [I3 I4]]]]]. exists m', h. split; [apply in_or_app; now right|].
      split; [right; apply (parted_in _ _ _ _ _ P); now right|]. auto.
Qed.
Lemma merged_invents_nothing : forall E js ms, merged E js ms -> forall m, In m ms ->
  exists h, In h js /\ same_content m h /\
    (j_type m = j_type h \/ j_type m = JInner /\ exists x, In x js /\ j_type x = JInner /\ join_equal E h x = Ok true).
Proof.
  intros E js ms M. induction M as [|j l tw ot out rest P S M IH]; intros m I; [destruct I|].
  apply in_app_iff in I. destruct I as [I|I].
  - destruct S as [|tw NE [x [Ix Tx]]|tw NE NI SM|tw NI MX].
    + destruct I as [<-|[]]. exists j. split; [now left|]. repeat split. now left.
    + destruct I as [<-|[]]. exists j. split; [now left|]. split; [repeat split|]. cbn [j_type]. destruct Ix as [->|Ix]; [left; congruence|].
      right. split; [reflexivity|]. exists x. split; [right; apply (parted_in _ _ _ _ _ P); now left|]. split; [exact Tx|].
      eapply parted_yes_all; eauto.
    + destruct I as [<-|[]]. exists j. split; [now left|]. repeat split. now left.
    + exists m. split; [|repeat split; now left]. destruct I as [<-|I]; [now left|]. right. apply (parted_in _ _ _ _ _ P). now left.
  - destruct (IH m I) as [h [Ih [Sh T]]]. exists h.
    assert (Sub : forall y, In y ot -> In y (j :: l)) by (intros y Hy; right; apply (parted_in _ _ _ _ _ P); now right).
    split; [auto|]. split; [exact Sh|]. destruct T as [T|[T [x [Ix [Tx Ex]]]]]; [now left|right]. split; [exact T|]. exists x. auto.
Qed.
Lemma merged_length : forall E js ms, merged E js ms -> (List.length ms <= List.length js)%nat.
Proof.
  intros E js ms M. induction M as [|j l tw ot out rest P St M IH]; [reflexivity|]. rewrite app_length.
  assert (L : (List.length tw + List.length ot = List.length l)%nat) by (clear - P; induction P; simpl; lia).
  assert (O : (List.length out <= 1 + List.length tw)%nat) by (destruct St; simpl; lia). simpl. lia.
Qed.

(** *** The calls on query objects *)
Lemma join_on_without_table : forall W,
  (forall q ty arg a k, s_tabs q = [] -> sel_step W q (SJoin ty arg) = (q, Err EInvalidQuery) /\ sel_step W q (SOn a k) = (q, Err EInvalidQuery)) /\
  (forall q ty arg a k, u_tabs q = [] -> upd_step W q (UJoin ty arg) = (q, Err EInvalidQuery) /\ upd_step W q (UOn a k) = (q, Err EInvalidQuery)) /\
  (forall q ty arg a k, d_refs q = [] -> del_step W q (DJoin ty arg) = (q, Err EInvalidQuery) /\ del_step W q (DOn a k) = (q, Err EInvalidQuery)).
Proof.
  intros W. split; [|split].
  - intros [f1 f2 tb f4 f5 f6 f7 f8 f9 f10] ty arg a k H. cbn [s_tabs] in H. subst tb.
    split; cbn [sel_step s_tabs]; rewrite ?join_no_table; reflexivity.
  - intros [f1 tb f3 f4 f5] ty arg a k H. cbn [u_tabs] in H. subst tb. split; cbn [upd_step]; rewrite ?join_no_table; reflexivity.
  - intros [f1 f2 tb f4 f5] ty arg a k H. cbn [d_refs] in H. subst tb. split; cbn [del_step]; rewrite ?join_no_table; reflexivity.
Qed.
Lemma on_without_join : forall W ts n al,
  (forall q a k, s_tabs q = ts ++ [MkTable n al []] -> sel_step W q (SOn a k) = (q, Err EInvalidQuery)) /\
  (forall q a k, u_tabs q = ts ++ [MkTable n al []] -> upd_step W q (UOn a k) = (q, Err EInvalidQuery)) /\
  (forall q a k, d_refs q = ts ++ [MkTable n al []] -> del_step W q (DOn a k) = (q, Err EInvalidQuery)).
Proof.
  intros W ts n al. split; [|split].
  - intros [f1 f2 tb f4 f5 f6 f7 f8 f9 f10] a k H. cbn [s_tabs] in H. subst tb. cbn [sel_step s_tabs]. rewrite on_no_join. reflexivity.
  - intros [f1 tb f3 f4 f5] a k H. cbn [u_tabs] in H. subst tb. cbn [upd_step]. rewrite on_no_join. reflexivity.
  - intros [f1 f2 tb f4 f5] a k H. cbn [d_refs] in H. subst tb. cbn [del_step]. rewrite on_no_join. reflexivity.
Qed.
Lemma join_err : forall W ty ts arg e, snd (tables_join W ty ts arg) = Err e -> fst (tables_join W ty ts arg) = ts.
Proof.
  intros W ty ts arg e. assert (X : snd (on_last_table (table_join W ty arg) ts) = Err e -> fst (on_last_table (table_join W ty arg) ts) = ts).
  { unfold on_last_table. destruct ts as [|t ts _] using rev_ind; [reflexivity|]. rewrite upd_last_snoc. unfold table_join. cbn [fst snd].
    destruct (join_target W arg); [discriminate|reflexivity]. }
  unfold tables_join. destruct ty; try exact X. destruct (supports_full_join _); [exact X|reflexivity].
Qed.
Lemma sel_join : forall W q q' ty arg ts n a js, s_tabs q = ts ++ [MkTable n a js] ->
  (sel_step W q (SJoin ty arg) = (q', Ok tt) <->
   (ty = JFull -> supports_full_join (e_be (w_env W)) = true) /\
   exists n' a', join_arg arg n' a' /\ table_ok_ n' a' /\
     sel_but_tables q q' /\ s_tabs q' = ts ++ [MkTable n a (js ++ [MkJoin ty n' a' []])]).
Proof.
  intros W q q' ty arg ts n a js T. cbn [sel_step]. unfold lift1. rewrite T. pose proof (join_call W ty ts n a js arg) as J.
  destruct (tables_join W ty (ts ++ [MkTable n a js]) arg) as [ts' o]. cbn [fst snd]. split.
  - intros H. injection H as <- ->. destruct (proj1 (J ts') eq_refl) as [F [n' [a' [A [K E]]]]]. split; [exact F|].
    exists n', a'. split; [exact A|]. split; [exact K|]. split; [repeat split|exact E].
  - intros [F [n' [a' [A [K [B E]]]]]]. assert (X : (ts', o) = (s_tabs q', Ok tt)).
    { apply J. split; [exact F|]. exists n', a'. auto. }
    injection X as -> ->. f_equal. unfold sel_but_tables in B. destruct q', q. cbn in *. destruct B as [B1 [B2 [B3 [B4 [B5 [B6 [B7 [B8 B9]]]]]]]].
    subst. reflexivity.
Qed.
Lemma upd_join : forall W q q' ty arg ts n a js, u_tabs q = ts ++ [MkTable n a js] ->
  (upd_step W q (UJoin ty arg) = (q', Ok tt) <->
   exists n' a', join_arg arg n' a' /\ table_ok_ n' a' /\
     upd_but_tables q q' /\ u_tabs q' = ts ++ [MkTable n a (js ++ [MkJoin (j3 ty) n' a' []])]).
Proof.
  intros W [ig tb vals wh al] q' ty arg ts n a js T. cbn [u_tabs] in T. subst tb. cbn [upd_step]. unfold lift1. pose proof (join_call W (j3 ty) ts n a js arg) as J.
  destruct (tables_join W (j3 ty) (ts ++ [MkTable n a js]) arg) as [ts' o]. cbn [fst snd]. split.
  - intros H. injection H as <- ->. destruct (proj1 (J ts') eq_refl) as [F [n' [a' [A [K E]]]]].
    exists n', a'. split; [exact A|]. split; [exact K|]. split; [repeat split|exact E].
  - intros [n' [a' [A [K [B E]]]]]. assert (X : (ts', o) = (u_tabs q', Ok tt)).
    { apply J. split; [destruct ty; discriminate|]. exists n', a'. auto. }
    injection X as -> ->. f_equal. unfold upd_but_tables in B. destruct q'. cbn in *. destruct B as [B1 [B2 [B3 B4]]]. subst. reflexivity.
Qed.
Lemma del_join : forall W q q' ty arg ts n a js, d_refs q = ts ++ [MkTable n a js] ->
  (del_step W q (DJoin ty arg) = (q', Ok tt) <->
   exists n' a', join_arg arg n' a' /\ table_ok_ n' a' /\
     del_but_tables q q' /\ d_refs q' = ts ++ [MkTable n a (js ++ [MkJoin (j3 ty) n' a' []])]).
Proof.
  intros W [ig tb refs wh al] q' ty arg ts n a js T. cbn [d_refs] in T. subst refs. cbn [del_step]. unfold lift1. pose proof (join_call W (j3 ty) ts n a js arg) as J.
  destruct (tables_join W (j3 ty) (ts ++ [MkTable n a js]) arg) as [ts' o]. cbn [fst snd]. split.
  - intros H. injection H as <- ->. destruct (proj1 (J ts') eq_refl) as [F [n' [a' [A [K E]]]]].
    exists n', a'. split; [exact A|]. split; [exact K|]. split; [repeat split|exact E].
  - intros [n' [a' [A [K [B E]]]]]. assert (X : (ts', o) = (d_refs q', Ok tt)).
    { apply J. split; [destruct ty; discriminate|]. exists n', a'. auto. }
    injection X as -> ->. f_equal. unfold del_but_tables in B. destruct q'. cbn in *. destruct B as [B1 [B2 [B3 B4]]]. subst. reflexivity.
Qed.
Lemma on_attached : forall W ts n a js ty n' a' ons args kwds ons' o, conds_where W KOn ons args kwds = (ons', o) ->
  let before := ts ++ [MkTable n a (js ++ [MkJoin ty n' a' ons])] in
  let after := ts ++ [MkTable n a (js ++ [MkJoin ty n' a' ons'])] in
  (forall q, s_tabs q = before -> exists q', sel_step W q (SOn args kwds) = (q', o) /\ sel_but_tables q q' /\ s_tabs q' = after) /\
  (forall q, u_tabs q = before -> exists q', upd_step W q (UOn args kwds) = (q', o) /\ upd_but_tables q q' /\ u_tabs q' = after) /\
  (forall q, d_refs q = before -> exists q', del_step W q (DOn args kwds) = (q', o) /\ del_but_tables q q' /\ d_refs q' = after).
Proof.
  intros W ts n a js ty n' a' ons args kwds ons' o C. cbn zeta. pose proof (on_call W ts n a js ty n' a' ons args kwds) as O. rewrite C in O.
  split; [|split].
  - intros [f1 f2 tb f4 f5 f6 f7 f8 f9 f10] T. cbn [s_tabs] in T. subst tb. cbn [sel_step s_tabs]. rewrite O. eexists. split; [reflexivity|repeat split].
  - intros [f1 tb f3 f4 f5] T. cbn [u_tabs] in T. subst tb. cbn [upd_step]. rewrite O. eexists. split; [reflexivity|repeat split].
  - intros [f1 f2 tb f4 f5] T. cbn [d_refs] in T. subst tb. cbn [del_step]. rewrite O. eexists. split; [reflexivity|repeat split].
Qed.
Lemma join_fails : forall W,
  (forall q ty arg q' e, sel_step W q (SJoin ty arg) = (q', Err e) -> q' = q) /\
  (forall q ty arg q' e, upd_step W q (UJoin ty arg) = (q', Err e) -> q' = q) /\
  (forall q ty arg q' e, del_step W q (DJoin ty arg) = (q', Err e) -> q' = q).
Proof.
  intros W. split; [|split].
  - intros [f1 f2 tb f4 f5 f6 f7 f8 f9 f10] ty arg q' e H. cbn [sel_step s_tabs] in H. unfold lift1 in H. injection H as <- H.
    now rewrite (join_err _ _ _ _ _ H).
  - intros [f1 tb f3 f4 f5] ty arg q' e H. cbn [upd_step] in H. unfold lift1 in H. injection H as <- H. now rewrite (join_err _ _ _ _ _ H).
  - intros [f1 f2 tb f4 f5] ty arg q' e H. cbn [del_step] in H. unfold lift1 in H. injection H as <- H. now rewrite (join_err _ _ _ _ _ H).
Qed.

(** *** Rows of INSERT *)
Lemma row_call : forall E q a k r q', keys_ok a k -> (forall x, a = [x] -> is_sql x = false) -> set_call a k r ->
  ins_step (pure_world E) q (IValues a k) = (q', Ok tt) ->
  exists out, i_rows q' = i_rows q ++ [map (fun p => VValue (fst p) (snd p)) out] /\ first_occurrences r out /\
    (forall c v, assigned out c v <-> newest r c v) /\
    forall c v, never_back r c -> assigned r c v -> assigned out c v.
Proof.
  intros E [rp ig tabs rows dup cf upd] a k r q' K NS R H. cbn [ins_step] in H. unfold lift1 in H. injection H as <- H. cbn [i_rows].
  destruct (set_call_ok E [] [] a k r K NS R (Forall_nil _) fo_nil) as [out [O [Do F]]]. cbn [map app] in O, F.
  unfold rows_add in *. destruct (values_set (pure_world E) [] a k) as [ps [u|e]]; [|discriminate]. cbn [fst] in *. subst ps.
  exists out. split; [reflexivity|]. split; [exact F|].
  assert (K1 : text_keys r).
  { unfold text_keys. rewrite Forall_forall in *. intros p Hp. apply (fo_in _ _ _ F) in Hp. now destruct (Do p Hp). }
  split; [now apply newest_wins|now apply never_back_wins].
Qed.
