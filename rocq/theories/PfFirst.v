(** Lemmas for C23 and C24 with arbitrary arguments (SpecFirst.v). *)
From Coq Require Import Permutation Sorted.
From Verif Require Import Base BaseFacts NumFmt Value Backend Eq Render ParseArgs Build Queries History
  SpecArgs SpecRead SpecHistory SpecLists SpecProgram SpecFirst PfArgs PfHistories PfErrors PfLists PfAccept.
Open Scope N_scope.

(** One call: the items are taken one after another, up to a failing one. *)
Lemma loop_takes : forall S (f : S -> val * val -> res S) (I : list (val * val) -> S -> Prop),
  (forall l s p s', I l s -> f s p = Ok s' -> I (l ++ [p]) s') ->
  forall ps l s, I l s -> exists r,
    (snd (foldE (fun s p => commit s (f s p)) s ps) = Ok tt /\ r = ps \/
     snd (foldE (fun s p => commit s (f s p)) s ps) <> Ok tt /\ exists p rest, ps = r ++ p :: rest) /\
    I (l ++ r) (fst (foldE (fun s p => commit s (f s p)) s ps)).
Proof.
  intros S f I St ps. induction ps as [|p ps IH]; intros l s Is.
  - exists []. rewrite app_nil_r. split; [left; split; reflexivity|exact Is].
  - cbn [foldE]. destruct (f s p) as [s'|e] eqn:F; cbn [commit].
    + destruct (IH (l ++ [p]) s' (St _ _ _ _ Is F)) as [r [R J]]. exists (p :: r). split.
      * destruct R as [[R1 R2]|[R1 [p' [rest R2]]]]; [left|right]; (split; [exact R1|]); [now f_equal|].
        exists p', rest. now rewrite R2.
      * rewrite <- app_assoc in J. exact J.
    + exists []. rewrite app_nil_r. split; [|exact Is]. right. split; [discriminate|]. exists p, ps. reflexivity.
Qed.
Lemma sort_items_perm : forall W items out, sort_items W items = Ok out -> Permutation items out.
Proof.
  intros W items out H. unfold sort_items in H. destruct items as [|x [|y l]]; [injection H as <-; constructor|injection H as <-; apply Permutation_refl|].
  set (its := x :: y :: l) in *. clearbody its. destruct (mapM _ its) as [ks|e] eqn:M; cbn [bind] in H; [|discriminate].
  destruct (existsb is_dkother ks || dk_dup ks); [discriminate|]. destruct (forallb is_dkstr ks || forallb is_dkint ks); [|discriminate].
  injection H as <-. assert (L : List.length ks = List.length its).
  { clear -M. revert ks M. induction its as [|z its IH]; intros ks M; [injection M as <-; reflexivity|]. cbn [mapM] in M.
    destruct (dict_key W (fst z)) as [d|]; cbn [bind] in M; [|discriminate]. destruct (mapM _ its) as [ds|] eqn:Q; cbn [bind] in M; [|discriminate].
    injection M as <-. cbn [List.length]. f_equal. now apply IH. }
  assert (S : map snd (combine ks its) = its).
  { clear -L. revert its L. induction ks as [|z ks IH]; intros [|w its] L; try discriminate; [reflexivity|]. cbn [combine map snd]. f_equal. apply IH. now injection L. }
  rewrite <- S at 1. apply Permutation_map, osort_perm.
Qed.
Lemma read_call : forall W a k, NoDup (map fst k) ->
  (exists ps, reads a k ps /\ parse_args W alias_opts a k = Ok (batches ps)) \/
  ((exists e, parse_args W alias_opts a k = Err e) /\ (usual a -> forall ps, ~ alias_args a k ps)).
Proof.
  intros W a k Nk. assert (D : (exists items, a = [VDict items]) \/ (forall items, a <> [VDict items])).
  { destruct a as [|x [|b r]]; try (right; intros; discriminate). destruct x; try (right; intros; discriminate). left. eauto. }
  destruct D as [[items ->]|D].
  - assert (P : parse_args W alias_opts [VDict items] k = do s <- sort_items W items; Ok (batches s)).
    { unfold parse_args. cbn [p_min p_max p_dict p_list alias_opts Nat.ltb Nat.leb andb bind app].
      destruct (sort_items W items) as [s|e]; cbn [bind]; [|reflexivity].
      rewrite (parse_items_batches alias_opts _ eq_refl). reflexivity. }
    rewrite P. destruct (sort_items W items) as [s|e] eqn:S; cbn [bind].
    + left. exists s. split; [|reflexivity]. split.
      * intros U. destruct (sort_items_order W items (U items eq_refl)) as [out [E O]]. rewrite S in E. injection E as ->. now constructor.
      * intros items' Q. injection Q as <-. exact (sort_items_perm W items s S).
    + right. split; [eauto|]. intros U. destruct (sort_items_order W items (U items eq_refl)) as [out [E O]]. congruence.
  - assert (K : keys_ok a k) by (split; [exact Nk|intros items Q; destruct (D items Q)]).
    destruct (alias_contract W a k K) as [[ps [A P]]|[P N]]; [left|right].
    + exists ps. split; [|exact P]. split; [intros _; exact A|]. intros items Q. destruct (D items Q).
    + split; [eauto|]. intros _. exact N.
Qed.
Lemma call_takes : forall W S (f : S -> val * val -> res S) (I : list (val * val) -> S -> Prop) (call : S -> S * outcome) a k,
  NoDup (map fst k) ->
  (forall s, call s = match parse_args W alias_opts a k with
                      | Err e => (s, Err e)
                      | Ok items => foldE (fun s it => let (c, v) := nth2 it in commit s (f s (c, v))) s items
                      end) ->
  (forall l s p s', I l s -> f s p = Ok s' -> I (l ++ [p]) s') ->
  forall l s, I l s -> exists r, taken a k (snd (call s)) r /\ I (l ++ r) (fst (call s)).
Proof.
  intros W S f I call a k K C St l s Is. rewrite C. destruct (read_call W a k K) as [[ps [P A]]|[[e B] N]].
  - rewrite A, (foldE_batches _ (fun s c v => commit s (f s (c, v)))).
    destruct (loop_takes S f I St ps l s Is) as [r [R J]].
    assert (Q : foldE (fun s p => commit s (f s (fst p, snd p))) s ps = foldE (fun s p => commit s (f s p)) s ps).
    { clear. revert s. induction ps as [|[c v] ps IH]; intros s; [reflexivity|]. cbn [foldE fst snd].
      destruct (commit s (f s (c, v))) as [s' [u|e]]; [apply IH|reflexivity]. }
    rewrite Q. exists r. split; [|exact J]. left. exists ps. split; [exact P|exact R].
  - rewrite B. exists []. rewrite app_nil_r. split; [|exact Is]. right. split; [exact N|]. split; [discriminate|reflexivity].
Qed.

(** A history. *)
Lemma history_takes_all : forall (part : selop -> outcome -> list (val * val) -> Prop) A (get : selq val -> A)
  (I : list (backend * (val * val)) -> A -> Prop) E (H : list (backend * selop)),
  (forall b op q l, In (b, op) H -> I l (get q) -> exists r, part op (snd (sel_step (pure_world (with_be E b)) q op)) r /\
                 I (l ++ map (pair b) r) (get (fst (sel_step (pure_world (with_be E b)) q op)))) ->
  forall q l, I l (get q) -> exists items,
    history_takes part H (outcomes sel_step q (program E H)) items /\ I (l ++ items) (get (calls sel_step q (program E H))).
Proof.
  intros part A get I E H. induction H as [|[b op] H IH]; intros St q l Iq.
  - exists []. rewrite app_nil_r. split; [constructor|exact Iq].
  - destruct (St b op q l (or_introl eq_refl) Iq) as [r [R J]].
    destruct (IH (fun b' op' q' l' i => St b' op' q' l' (or_intror i)) _ _ J) as [items [T K]].
    exists (map (pair b) r ++ items). split; [constructor; assumption|]. rewrite app_assoc. exact K.
Qed.

(** *** Columns *)
Lemma append_first : forall I A (eq : I -> A -> A -> res bool) i l out x out', distinct_first eq l out ->
  append_unique (eq i) out x = Ok out' -> distinct_first eq (l ++ [(i, x)]) out'.
Proof.
  intros I A eq i l out x out' D H. unfold append_unique in H.
  destruct (anyM (fun p => eq i p x) out) as [[]|] eqn:Q; try discriminate; injection H as <-.
  - assert (X : exists y, In y out /\ eq i y x = Ok true).
    { clear -Q. induction out as [|y out IH]; [discriminate|]. cbn [anyM] in Q. destruct (eq i y x) as [[]|] eqn:T; try discriminate.
      - exists y. split; [now left|exact T].
      - destruct (IH Q) as [z [Z1 Z2]]. exists z. split; [now right|exact Z2]. }
    destruct X as [y [Y1 Y2]]. eapply df_old; eassumption.
  - apply df_new; [exact D|]. exact (anyM_false _ _ _ Q).
Qed.
Lemma columns_taken : forall E H, (forall b a k, In (b, SColumns a k) H -> NoDup (map fst k)) -> exists items,
  history_takes taken_columns H (outcomes sel_step empty_select (program E H)) items /\
  distinct_first (fun b => pair_eq (py_eq (with_be E b))) items (s_cols (calls sel_step empty_select (program E H))) /\
  Forall (fun p => named (fst p) /\ aliased (snd p)) (s_cols (calls sel_step empty_select (program E H))).
Proof.
  intros E H K. set (eq := fun b => pair_eq (py_eq (with_be E b))).
  apply (history_takes_all taken_columns _ s_cols
    (fun l out => distinct_first eq l out /\ Forall (fun p => named (fst p) /\ aliased (snd p)) out) E H) with (l := []).
  2:{ split; constructor. }
  intros b op q l IN [D F]. destruct op; try (exists []; cbn [map]; rewrite app_nil_r; split; [reflexivity|split; assumption]).
  specialize (K b args kwds IN). cbn [sel_step taken_columns]. set (W := pure_world (with_be E b)).
  set (f := fun s p => do x <- mk_column (fst p) (snd p); append_unique (pair_eq (w_eq W)) s x).
  destruct (call_takes W _ f (fun r out => distinct_first eq (l ++ map (pair b) r) out /\ Forall (fun p => named (fst p) /\ aliased (snd p)) out)
    (fun s => columns_add W s args kwds) args kwds K) with (l := @nil (val * val)) (s := s_cols q) as [r [R J]].
  - reflexivity.
  - intros r s p s' [Ds Fs] Q. unfold f in Q. destruct p as [c v]. cbn [fst snd] in Q.
    destruct (column_made c v) as [[x [M OK]]|[M _]]; rewrite M in Q; [|discriminate]. cbn [bind] in Q.
    assert (x = (c, v)). { unfold mk_column in M. destruct (negb _); [discriminate|]. destruct (negb _); [discriminate|]. now injection M. }
    subst x. split.
    + rewrite map_app, app_assoc. exact (append_first _ _ eq b _ _ _ _ Ds Q).
    + unfold append_unique in Q. destruct (anyM _ s) as [[]|]; try discriminate; injection Q as <-; [exact Fs|].
      apply Forall_app. split; [exact Fs|]. constructor; [exact OK|constructor].
  - cbn [map]. rewrite app_nil_r. split; assumption.
  - exists r. unfold lift1. destruct (columns_add W (s_cols q) args kwds) as [out o]. cbn [fst snd with_cols s_cols] in *.
    split; [exact R|exact J].
Qed.

(** *** ORDER BY and GROUP BY *)
Lemma update_split : forall W os c v,
  (forall os', order_update W os c v = Ok (Some os') -> exists pre c' d' post d, os = pre ++ (c', d') :: post /\
     os' = pre ++ (c', d) :: post /\ (forall y, In y pre -> w_eq W (fst y) c = Ok false) /\ w_eq W c' c = Ok true /\ mk_sort (w_env W) v = Ok d) /\
  (order_update W os c v = Ok None -> forall y, In y os -> w_eq W (fst y) c = Ok false).
Proof.
  intros W. induction os as [|[c' d'] os IH]; intros c v; cbn [order_update]; [split; [discriminate|intros _ y []]|].
  destruct (w_eq W c' c) as [[]|e] eqn:Q.
  - destruct (mk_sort (w_env W) v) as [d|e] eqn:M; cbn [bind]; (split; [|discriminate]); [|discriminate].
    intros os' X. injection X as <-. exists [], c', d', os, d. repeat split; try assumption. intros y [].
  - destruct (IH c v) as [A B]. destruct (order_update W os c v) as [[os1|]|e] eqn:U; cbn [bind].
    + split; [|discriminate]. intros os' X. injection X as <-. destruct (A os1 eq_refl) as [pre [c1 [d1 [post [d [-> [-> [P1 [P2 P3]]]]]]]]].
      exists ((c', d') :: pre), c1, d1, post, d. repeat split; try assumption. intros y [<-|Y]; [exact Q|now apply P1].
    + split; [discriminate|]. intros _ y [<-|Y]; [exact Q|now apply B].
    + split; discriminate.
  - split; discriminate.
Qed.
Lemma name_checked : forall c, check_type [TStr; TInt] c = true -> named c.
Proof.
  intros c C. unfold named, name_arg. cases c; try discriminate C; eauto.
Qed.
Lemma order_one_wins : forall E b l out c v out',
  last_wins (fun b => py_eq (with_be E b)) (direction (supper E)) l out -> Forall (fun p => named (fst p)) out ->
  order_one (pure_world (with_be E b)) out c v = Ok out' ->
  last_wins (fun b => py_eq (with_be E b)) (direction (supper E)) (l ++ [(b, (c, v))]) out' /\ Forall (fun p => named (fst p)) out'.
Proof.
  intros E b l out c v out' L F Q. unfold order_one in Q. set (W := pure_world (with_be E b)) in *.
  assert (DIR : forall d, mk_sort (w_env W) v = Ok d -> direction (supper E) v d).
  { intros d M. destruct (sort_made (w_env W) v) as [[d' [M' X]]|[[M'|[M' _]] _]]; rewrite M in M'; try discriminate. injection M' as ->. exact X. }
  destruct (update_split W out c v) as [A B]. destruct (order_update W out c v) as [[os1|]|e] eqn:U; cbn [bind] in Q; try discriminate.
  - injection Q as <-. destruct (A os1 eq_refl) as [pre [c1 [d1 [post [d [-> [-> [P1 [P2 P3]]]]]]]]]. split.
    + eapply lw_old; [exact L|now apply DIR|exact P1|exact P2].
    + apply Forall_app in F. destruct F as [F1 F2]. inversion F2; subst. apply Forall_app. split; [exact F1|]. constructor; assumption.
  - destruct (check_type [TStr; TInt] c) eqn:C; cbn [negb] in Q; [|discriminate].
    destruct (mk_sort (w_env W) v) as [d|] eqn:M; cbn [bind] in Q; [|discriminate]. injection Q as <-. split.
    + apply lw_new; [exact L|now apply DIR|]. exact (B eq_refl).
    + apply Forall_app. split; [exact F|]. constructor; [now apply name_checked|constructor].
Qed.
Lemma orders_taken : forall E b out a k, NoDup (map fst k) -> forall l,
  last_wins (fun b => py_eq (with_be E b)) (direction (supper E)) l out /\ Forall (fun p => named (fst p)) out ->
  exists r, taken a k (snd (orders_add (pure_world (with_be E b)) out a k)) r /\
    last_wins (fun b => py_eq (with_be E b)) (direction (supper E)) (l ++ map (pair b) r) (fst (orders_add (pure_world (with_be E b)) out a k)) /\
    Forall (fun p => named (fst p)) (fst (orders_add (pure_world (with_be E b)) out a k)).
Proof.
  intros E b out a k K l L. set (W := pure_world (with_be E b)).
  destruct (call_takes W _ (fun s p => order_one W s (fst p) (snd p))
    (fun r out => last_wins (fun b => py_eq (with_be E b)) (direction (supper E)) (l ++ map (pair b) r) out /\ Forall (fun p => named (fst p)) out)
    (fun s => orders_add W s a k) a k K) with (l := @nil (val * val)) (s := out) as [r [R J]].
  - reflexivity.
  - intros r s [c v] s' [Ds Fs] Q. cbn [fst snd] in Q. rewrite map_app, app_assoc. exact (order_one_wins E b _ _ _ _ _ Ds Fs Q).
  - cbn [map]. rewrite app_nil_r. exact L.
  - exists r. split; [exact R|exact J].
Qed.
Lemma order_taken : forall E H, (forall b a k, In (b, SOrderBy a k) H -> NoDup (map fst k)) -> exists items,
  history_takes taken_order H (outcomes sel_step empty_select (program E H)) items /\
  last_wins (fun b => py_eq (with_be E b)) (direction (supper E)) items (s_order (calls sel_step empty_select (program E H))) /\
  Forall (fun p => named (fst p)) (s_order (calls sel_step empty_select (program E H))).
Proof.
  intros E H K. set (eq := fun b => py_eq (with_be E b)).
  apply (history_takes_all taken_order _ s_order
    (fun l out => last_wins eq (direction (supper E)) l out /\ Forall (fun p => named (fst p)) out) E H) with (l := []).
  2:{ split; constructor. }
  intros b op q l IN D. destruct op; try (exists []; cbn [map]; rewrite app_nil_r; split; [reflexivity|exact D]).
  specialize (K b args kwds IN). destruct (orders_taken E b (s_order q) args kwds K l D) as [r [R J]]. exists r.
  cbn [sel_step taken_order]. unfold lift1. destruct (orders_add _ (s_order q) args kwds) as [out o]. cbn [fst snd with_order s_order] in *.
  split; [exact R|exact J].
Qed.
Lemma group_taken : forall E H, (forall b a k, In (b, SGroupBy a k) H -> NoDup (map fst k)) -> exists items,
  history_takes taken_group H (outcomes sel_step empty_select (program E H)) items /\
  last_wins (fun b => py_eq (with_be E b)) (direction (supper E)) items (s_group (calls sel_step empty_select (program E H))) /\
  Forall (fun p => named (fst p)) (s_group (calls sel_step empty_select (program E H))).
Proof.
  intros E H K. set (eq := fun b => py_eq (with_be E b)).
  apply (history_takes_all taken_group _ s_group
    (fun l out => last_wins eq (direction (supper E)) l out /\ Forall (fun p => named (fst p)) out) E H) with (l := []).
  2:{ split; constructor. }
  intros b op q l IN D. destruct op; try (exists []; cbn [map]; rewrite app_nil_r; split; [reflexivity|exact D]).
  specialize (K b args kwds IN). destruct (orders_taken E b (s_group q) args kwds K l D) as [r [R J]]. exists r.
  cbn [sel_step taken_group]. unfold lift1. destruct (orders_add _ (s_group q) args kwds) as [out o]. cbn [fst snd with_group s_group] in *.
  split; [exact R|exact J].
Qed.

(** Under one backend no two entries are the same. *)
Lemma first_distinct : forall I A (eq : I -> A -> A -> res bool) i l out, distinct_first eq l out ->
  Forall (fun p => fst p = i) l -> ForallOrdPairs (fun p q => eq i p q = Ok false) out.
Proof.
  intros I A eq i l out D. induction D as [|l out j x D IH N|l out j x y D IH Y Q]; intros F; [constructor| |].
  - apply Forall_app in F. destruct F as [F1 F2]. inversion F2; subst. apply ordpairs_snoc; [now apply IH|].
    apply Forall_forall. exact N.
  - apply Forall_app in F. now apply IH.
Qed.
Lemma ordpairs_map : forall A B (g : A -> B) (R : B -> B -> Prop) l, ForallOrdPairs R (map g l) -> ForallOrdPairs (fun p q => R (g p) (g q)) l.
Proof.
  intros A B g R l. induction l as [|x l IH]; intros F; [constructor|]. cbn [map] in F. inversion F; subst. constructor; [|now apply IH].
  now apply Forall_map.
Qed.
Lemma wins_names : forall I (eq : I -> val -> val -> res bool) dir l out, last_wins eq dir l out ->
  distinct_first eq (map (fun p => (fst p, fst (snd p))) l) (map fst out).
Proof.
  intros I eq dir l out L. induction L as [|l out i c v d L IH Dv N|l pre c' d' post i c v d L IH Dv N Q]; [constructor| |].
  - rewrite !map_app. cbn [map fst snd]. apply df_new; [exact IH|]. intros y Y. apply in_map_iff in Y. destruct Y as [p [<- P]]. now apply N.
  - rewrite !map_app in *. cbn [map fst snd] in *. eapply df_old; [exact IH| |exact Q]. apply in_or_app. right. now left.
Qed.
Lemma taken_backend : forall part H b, (forall bo, In bo H -> fst bo = b) -> forall os items, history_takes part H os items ->
  Forall (fun p => fst p = b) items.
Proof.
  intros part H b B os items T. induction T as [|b' op H o os r items P T IH]; [constructor|]. apply Forall_app. split.
  - specialize (B _ (or_introl eq_refl)). cbn [fst] in B. subst b'. apply Forall_map. apply Forall_forall. reflexivity.
  - apply IH. intros bo I. apply B. now right.
Qed.
Lemma wins_distinct : forall E b l out, last_wins (fun b => py_eq (with_be E b)) (direction (supper E)) l out ->
  Forall (fun p => fst p = b) l -> ForallOrdPairs (fun p q => py_eq (with_be E b) (fst p) (fst q) = Ok false) out.
Proof.
  intros E b l out L F. apply (ordpairs_map _ _ fst (fun p q => py_eq (with_be E b) p q = Ok false)).
  apply (first_distinct _ _ (fun b => py_eq (with_be E b)) b _ _ (wins_names _ _ _ _ _ L)). apply Forall_map. exact F.
Qed.
Lemma order_distinct : forall E b H, (forall bo, In bo H -> fst bo = b) ->
  (forall b a k, In (b, SOrderBy a k) H -> NoDup (map fst k)) ->
  ForallOrdPairs (fun p q => py_eq (with_be E b) (fst p) (fst q) = Ok false) (s_order (calls sel_step empty_select (program E H))).
Proof.
  intros E b H B K. destruct (order_taken E H K) as [items [T [L _]]]. exact (wins_distinct E b _ _ L (taken_backend _ _ _ B _ _ T)).
Qed.
Lemma group_distinct : forall E b H, (forall bo, In bo H -> fst bo = b) ->
  (forall b a k, In (b, SGroupBy a k) H -> NoDup (map fst k)) ->
  ForallOrdPairs (fun p q => py_eq (with_be E b) (fst p) (fst q) = Ok false) (s_group (calls sel_step empty_select (program E H))).
Proof.
  intros E b H B K. destruct (group_taken E H K) as [items [T [L _]]]. exact (wins_distinct E b _ _ L (taken_backend _ _ _ B _ _ T)).
Qed.
