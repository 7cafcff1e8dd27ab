(** Lemmas about the argument parser: C20-C22. *)
From Coq Require Import Lia Permutation Sorted.
From Verif Require Import Base BaseFacts NumFmt Value Backend Eq Render RenderFacts ParseArgs Build Queries History
  SpecArgs PfLiterals.
Open Scope N_scope.

(** ** Orders *)
Lemma sltb_before : forall a b, sltb a b = true <-> before a b.
Proof.
  induction a as [|x a IH]; intros [|y b]; simpl; split; intros H; try discriminate; try (inversion H; fail).
  - constructor.
  - reflexivity.
  - destruct (x <? y) eqn:L; [apply N.ltb_lt in L; now constructor|].
    destruct (x =? y) eqn:Q; [|discriminate]. apply N.eqb_eq in Q. subst. apply before_same. now apply IH.
  - inversion H as [|c d s t L|c s t L]; subst.
    + apply N.ltb_lt in L. now rewrite L.
    + rewrite N.ltb_irrefl, N.eqb_refl. now apply IH.
Qed.
Lemma before_irrefl : forall a, ~ before a a.
Proof. induction a; intros H; inversion H; subst; [lia|auto]. Qed.
Lemma before_trans : forall a b c, before a b -> before b c -> before a c.
Proof.
  induction a as [|x a IH]; intros b c H1 H2; inversion H1; subst; inversion H2; subst;
    try (apply before_nil); try (apply before_chr; lia); try (apply before_same; eauto).
Qed.
Lemma before_total : forall a b, sltb b a = false -> a <> b -> before a b.
Proof.
  induction a as [|x a IH]; intros [|y b] H N; simpl in *; try congruence; try apply before_nil.
  destruct (y <? x) eqn:L; [discriminate|]. apply N.ltb_ge in L. destruct (y =? x) eqn:Q.
  - apply N.eqb_eq in Q. subst. apply before_same. apply IH; congruence.
  - apply N.eqb_neq in Q. apply before_chr. lia.
Qed.
Lemma key_before_trans : forall a b c, key_before a b -> key_before b c -> key_before a c.
Proof. intros a b c H1 H2. inversion H1; subst; inversion H2; subst; constructor; [eapply before_trans; eauto|lia]. Qed.
Lemma key_before_irrefl : forall a, ~ key_before a a.
Proof. intros a H. inversion H; subst; [eapply before_irrefl; eauto|lia]. Qed.

(** ** Sorting *)
Section Sort.
  Context {A : Type} (lt : A -> A -> bool) (R D : A -> A -> Prop).
  Hypothesis Rt : forall a b c, R a b -> R b c -> R a c.
  Hypothesis LR : forall x y, D x y -> if lt y x then R y x else R x y.
  Lemma oinsert_perm : forall x l, Permutation (x :: l) (oinsert lt x l).
  Proof.
    intros x l. induction l as [|y l IH]; simpl; [constructor; constructor|].
    destruct (lt y x); [|reflexivity]. etransitivity; [apply perm_swap|]. constructor. exact IH.
  Qed.
  Lemma osort_perm : forall l, Permutation l (osort lt l).
  Proof. induction l as [|x l IH]; simpl; [constructor|]. etransitivity; [|apply oinsert_perm]. now constructor. Qed.
  Lemma oinsert_sorted : forall x l, (forall y, In y l -> D x y) -> StronglySorted R l -> StronglySorted R (oinsert lt x l).
  Proof.
    intros x l. induction l as [|y l IH]; intros HD S; simpl; [repeat constructor|].
    inversion S as [|? ? S1 S2]; subst. pose proof (LR x y (HD y (or_introl eq_refl))) as L.
    destruct (lt y x).
    - constructor; [apply IH; [intros; apply HD; now right|exact S1]|].
      eapply Permutation_Forall; [apply oinsert_perm|]. constructor; assumption.
    - constructor; [exact S|]. constructor; [exact L|]. rewrite Forall_forall in *. intros z Hz. eapply Rt; eauto.
  Qed.
  Lemma osort_sorted : forall l, ForallOrdPairs D l -> StronglySorted R (osort lt l).
  Proof.
    induction l as [|x l IH]; intros F; simpl; [constructor|]. inversion F as [|? ? F1 F2]; subst.
    apply oinsert_sorted; [|auto]. intros y Hy. rewrite Forall_forall in F1. apply F1.
    eapply Permutation_in; [apply Permutation_sym, osort_perm|exact Hy].
  Qed.
End Sort.
Lemma sorted_unique : forall A (R : A -> A -> Prop), (forall a b c, R a b -> R b c -> R a c) -> (forall a, ~ R a a) ->
  forall l m, StronglySorted R l -> StronglySorted R m -> Permutation l m -> l = m.
Proof.
  intros A R Rt Ri l. induction l as [|x l IH]; intros m Sl Sm P.
  - apply Permutation_nil in P. now subst.
  - destruct m as [|y m]; [apply Permutation_sym, Permutation_nil in P; discriminate|].
    inversion Sl as [|? ? S1 S2]; subst. inversion Sm as [|? ? T1 T2]; subst. rewrite Forall_forall in S2, T2.
    assert (x = y).
    { assert (Ix : In x (y :: m)) by (eapply Permutation_in; [exact P|now left]).
      assert (Iy : In y (x :: l)) by (eapply Permutation_in; [apply Permutation_sym; exact P|now left]).
      destruct Ix as [->|Ix]; [reflexivity|]. destruct Iy as [->|Iy]; [reflexivity|].
      exfalso. apply (Ri x). eapply Rt; [apply S2, Iy|apply T2, Ix]. }
    subst. f_equal. apply IH; auto. eapply Permutation_cons_inv; exact P.
Qed.
Lemma key_order_unique : forall items a b, in_key_order items a -> in_key_order items b -> a = b.
Proof.
  intros items a b [P1 S1] [P2 S2].
  eapply (sorted_unique _ (fun p q => key_before (fst p) (fst q))); eauto.
  - intros x y z. apply key_before_trans.
  - intros x. apply key_before_irrefl.
  - etransitivity; [apply Permutation_sym; exact P1|exact P2].
Qed.
Lemma key_order_perm : forall items items' a, Permutation items items' -> in_key_order items a -> in_key_order items' a.
Proof. intros items items' a P [Q S]. split; [|exact S]. etransitivity; [apply Permutation_sym; exact P|exact Q]. Qed.

(** Keyword arguments *)
Lemma map_perm : forall A B (f : A -> B) l m, Permutation l m -> Permutation (map f l) (map f m).
Proof. intros. now apply Permutation_map. Qed.
Lemma sorted_map : forall A B (f : A -> B) (R : B -> B -> Prop) l,
  StronglySorted (fun x y => R (f x) (f y)) l -> StronglySorted R (map f l).
Proof.
  intros A B f R l. induction l as [|x l IH]; intros S; simpl; [constructor|]. inversion S; subst.
  constructor; [auto|]. now rewrite Forall_map.
Qed.
Lemma nodup_pairs : forall A B (f : A -> B) l, NoDup (map f l) -> ForallOrdPairs (fun x y => f x <> f y) l.
Proof.
  intros A B f l. induction l as [|x l IH]; intros N; [constructor|]. simpl in N. inversion N; subst.
  constructor; [|auto]. rewrite Forall_forall. intros y Hy C. apply H1. rewrite C. now apply in_map.
Qed.
Lemma sort_kwds_order : forall kwds, NoDup (map fst kwds) -> in_key_order (kw_items kwds) (sort_kwds kwds).
Proof.
  intros kwds N. unfold sort_kwds, kw_items. split.
  - apply Permutation_map, osort_perm.
  - apply sorted_map. cbn [fst].
    apply (osort_sorted kw_lt (fun x y => key_before (VStr (fst x)) (VStr (fst y))) (fun x y => fst x <> fst y)).
    + intros a b c. apply key_before_trans.
    + intros x y H. unfold kw_lt. destruct (sltb (fst y) (fst x)) eqn:L; constructor.
      * now apply sltb_before.
      * apply before_total; auto.
    + now apply nodup_pairs.
Qed.

(** Dictionaries *)
Lemma mapM_map : forall A B (f : A -> res B) (g : A -> B) l, (forall x, In x l -> f x = Ok (g x)) -> mapM f l = Ok (map g l).
Proof. intros. apply mapM_Forall2. induction l; constructor; [apply H; now left|apply IHl; intros; apply H; now right]. Qed.
Definition keyof (v : val) : dkey := match v with VStr s => DKStr s | VInt z => DKInt z | _ => DKOther end.
Lemma combine_map : forall A B (f : A -> B) l, combine (map f l) l = map (fun x => (f x, x)) l.
Proof. induction l; simpl; congruence. Qed.
Lemma forallb_map : forall A B (f : A -> B) (p : B -> bool) l, forallb p (map f l) = forallb (fun x => p (f x)) l.
Proof. induction l; simpl; congruence. Qed.
Lemma existsb_map : forall A B (f : A -> B) (p : B -> bool) l, existsb p (map f l) = existsb (fun x => p (f x)) l.
Proof. induction l; simpl; congruence. Qed.
Lemma dk_dup_false : forall l, NoDup l -> (forall k, In k l -> keyof k <> DKOther) -> dk_dup (map keyof l) = false.
Proof.
  induction l as [|x l IH]; intros N O; [reflexivity|]. inversion N; subst. simpl. apply orb_false_iff. split.
  - rewrite existsb_map. destruct (existsb _ l) eqn:Q; [|reflexivity]. apply existsb_exists in Q. destruct Q as [y [Hy E]].
    exfalso. apply H1. replace x with y; [exact Hy|].
    pose proof (O x (or_introl eq_refl)). pose proof (O y (or_intror Hy)).
    destruct x, y; simpl in *; try congruence.
    + apply Z.eqb_eq in E. congruence.
    + apply seqb_eq in E. congruence.
  - apply IH; [assumption|intros; apply O; now right].
Qed.
Lemma sort_items_order : forall W items, sortable items -> exists out, sort_items W items = Ok out /\ in_key_order items out.
Proof.
  intros W items [N K].
  assert (O : forall k, In k (map fst items) -> keyof k <> DKOther).
  { intros k Hk. destruct K as [K|K]; destruct (K k Hk) as [x ->]; discriminate. }
  destruct items as [|p [|p' items]].
  - exists []. split; [reflexivity|split; constructor].
  - exists [p]. split; [reflexivity|split; repeat constructor].
  - set (l := p :: p' :: items) in *. change (sort_items W l) with
      (do ks <- mapM (fun p => dict_key W (fst p)) l;
       if existsb is_dkother ks || dk_dup ks then Err EUnmodelled
       else if forallb is_dkstr ks || forallb is_dkint ks
            then Ok (map snd (osort dk_lt (combine ks l)))
            else Err ETypeError). clearbody l.
    rewrite (mapM_map _ _ _ (fun p => keyof (fst p))).
    2:{ intros x Hx. assert (I : In (fst x) (map fst l)) by now apply in_map.
        destruct K as [K|K]; destruct (K _ I) as [y ->]; reflexivity. }
    cbn [bind]. replace (existsb is_dkother (map (fun p => keyof (fst p)) l)) with false.
    2:{ symmetry. destruct (existsb _ _) eqn:Q; [|reflexivity]. apply existsb_exists in Q. destruct Q as [k [Hk Q]].
        apply in_map_iff in Hk. destruct Hk as [x [<- Hx]]. pose proof (O (fst x) (in_map _ _ _ Hx)). destruct (keyof (fst x)); simpl in Q; congruence. }
    replace (dk_dup (map (fun p => keyof (fst p)) l)) with false.
    2:{ symmetry. rewrite <- (map_map fst keyof). now apply dk_dup_false. }
    cbn [orb]. replace (forallb is_dkstr (map (fun p => keyof (fst p)) l) || forallb is_dkint (map (fun p => keyof (fst p)) l)) with true.
    2:{ symmetry. apply orb_true_iff. rewrite !forallb_map, !forallb_forall. destruct K as [K|K]; [left|right]; intros x Hx;
        destruct (K (fst x) (in_map _ _ _ Hx)) as [y ->]; reflexivity. }
    rewrite combine_map. eexists. split; [reflexivity|]. split.
    + transitivity (map snd (map (fun x => (keyof (fst x), x)) l)).
      * rewrite map_map. simpl. now rewrite map_id.
      * apply Permutation_map, osort_perm.
    + apply sorted_map.
      set (D := fun x y : keyed => fst (snd x) <> fst (snd y) /\ fst x = keyof (fst (snd x)) /\ fst y = keyof (fst (snd y)) /\
             ((exists s t, fst (snd x) = VStr s /\ fst (snd y) = VStr t) \/ (exists m n, fst (snd x) = VInt m /\ fst (snd y) = VInt n))).
      apply (osort_sorted dk_lt (fun x y => key_before (fst (snd x)) (fst (snd y))) D).
      * intros a b c. apply key_before_trans.
      * intros x y [H1 [H2 [H3 H4]]]. unfold dk_lt. rewrite H2, H3.
        destruct H4 as [[s [t [Q1 Q2]]]|[m [n [Q1 Q2]]]]; rewrite Q1, Q2 in *; cbn [keyof].
        -- destruct (sltb t s) eqn:L; constructor; [now apply sltb_before|apply before_total; congruence].
        -- destruct (n <? m)%Z eqn:L; constructor; [lia|]. assert (m <> n) by congruence. lia.
      * assert (F : forall m, NoDup (map fst m) -> (forall x, In x m -> In x l) -> ForallOrdPairs D (map (fun x => (keyof (fst x), x)) m)).
        { induction m as [|x m IH]; intros Nm Im; [constructor|]. simpl in Nm. inversion Nm; subst. simpl. constructor.
          - rewrite Forall_map, Forall_forall. intros y Hy. unfold D. cbn [fst snd].
            split; [intros C; apply H1; rewrite C; now apply in_map|]. split; [reflexivity|split; [reflexivity|]].
            pose proof (in_map fst _ _ (Im x (or_introl eq_refl))) as Ix. pose proof (in_map fst _ _ (Im y (or_intror Hy))) as Iy.
            destruct K as [K|K]; [left|right]; destruct (K _ Ix) as [a ->]; destruct (K _ Iy) as [b ->]; eauto.
          - apply IH; [assumption|intros; apply Im; now right]. }
        apply F; auto.
Qed.

(** ** C20 *)
Definition batches (ps : list (val * val)) : list (list val) := map (fun p => [fst p; snd p]) ps.
Lemma parse_items_batches : forall o ps, p_max o = 2%nat -> parse_items o ps = Ok (batches ps).
Proof. intros o ps H. unfold parse_items, batches. apply mapM_map. intros x _. unfold create_batch. rewrite H. reflexivity. Qed.
Lemma batch_padded : forall o l p, p_max o = 2%nat -> padded l p -> create_batch o l = Ok [fst p; snd p].
Proof. intros o l p H P. unfold create_batch. rewrite H. inversion P; reflexivity. Qed.
Lemma batch_cases : forall o l, p_max o = 2%nat ->
  (exists p, padded l p) \/ (create_batch o l = Err EInvalidArgument /\ forall p, ~ padded l p).
Proof.
  intros o l H. destruct l as [|a [|b [|c l]]]; try (left; eexists; constructor; fail).
  right. split; [unfold create_batch; rewrite H; reflexivity|]. intros p P. inversion P.
Qed.
Lemma group_or_scalar : forall v, (exists l, group v l) \/ scalar v.
Proof.
  unfold group, scalar. intros v. destruct v; try (right; intros l' [H|H]; discriminate).
  destruct k; try (right; intros l' [H|H]; discriminate); left; eauto.
Qed.
Lemma group_fun : forall v l m, group v l -> group v m -> l = m.
Proof. intros v l m [->| ->] [H|H]; congruence. Qed.
Lemma parse_group : forall o v l, group v l -> parse_list_item o v = create_batch o l.
Proof. intros o v l [->| ->]; reflexivity. Qed.
Lemma parse_scalar : forall o v, scalar v -> parse_list_item o v =
  if Nat.eqb (p_min o) 1 then create_batch o [v] else Err EInvalidArgument.
Proof.
  intros o v S. destruct v; try reflexivity. destruct k; try reflexivity; exfalso; eapply S; [left|right]; reflexivity.
Qed.
Lemma scalar_lot : forall v, is_list_or_tuple v = false <-> scalar v.
Proof.
  intros v. split.
  - intros H l [->| ->]; discriminate.
  - intros S. destruct v; try reflexivity. destruct k; try reflexivity; exfalso; eapply S; [left|right]; reflexivity.
Qed.
Lemma padded_fun : forall l p q, padded l p -> padded l q -> p = q.
Proof. intros l p q H1 H2. inversion H1; subst; inversion H2; reflexivity. Qed.

Lemma mapM_cases : forall A B C (f : A -> res B) (g : C -> B) (P : A -> C -> Prop) e,
  (forall x, (exists y, P x y /\ f x = Ok (g y)) \/ (f x = Err e /\ forall y, ~ P x y)) ->
  forall l, (exists ys, Forall2 P l ys /\ mapM f l = Ok (map g ys)) \/ (mapM f l = Err e /\ forall ys, ~ Forall2 P l ys).
Proof.
  intros A B C f g P e H l. induction l as [|x l IH].
  - left. exists []. split; [constructor|reflexivity].
  - simpl. destruct (H x) as [[y [P1 F1]]|[F1 N]].
    + rewrite F1. destruct IH as [[ys [P2 F2]]|[F2 N]].
      * left. exists (y :: ys). rewrite F2. split; [now constructor|reflexivity].
      * right. rewrite F2. split; [reflexivity|]. intros zs Z. inversion Z; subst. eapply N; eauto.
    + right. rewrite F1. split; [reflexivity|]. intros zs Z. inversion Z; subst. eapply N; eauto.
Qed.
Lemma pair_item_cases : forall v, (exists p, pair_item v p /\ parse_list_item pair_opts v = Ok [fst p; snd p]) \/
  (parse_list_item pair_opts v = Err EInvalidArgument /\ forall p, ~ pair_item v p).
Proof.
  intros v. destruct (group_or_scalar v) as [[l G]|S].
  - rewrite (parse_group _ _ _ G). destruct (batch_cases pair_opts l eq_refl) as [[p P]|[E N]].
    + left. exists p. split; [exists l; auto|now apply batch_padded].
    + right. split; [exact E|]. intros p [l' [G' P']]. rewrite (group_fun _ _ _ G G') in N. eapply N; eauto.
  - right. rewrite (parse_scalar _ _ S). split; [reflexivity|]. intros p [l [G _]]. eapply S; eauto.
Qed.
Lemma alias_item_cases : forall v, (exists p, alias_item v p /\ parse_list_item alias_opts v = Ok [fst p; snd p]) \/
  (parse_list_item alias_opts v = Err EInvalidArgument /\ forall p, ~ alias_item v p).
Proof.
  intros v. destruct (group_or_scalar v) as [[l G]|S].
  - rewrite (parse_group _ _ _ G). destruct (batch_cases alias_opts l eq_refl) as [[p P]|[E N]].
    + left. exists p. split; [left; exists l; auto|now apply batch_padded].
    + right. split; [exact E|]. intros p [[l' [G' P']]|[S' _]].
      * rewrite (group_fun _ _ _ G G') in N. eapply N; eauto.
      * eapply S'; eauto.
  - left. exists (v, VNone). split; [right; auto|]. now rewrite (parse_scalar _ _ S).
Qed.

Lemma kw_result : forall W o (args : list val) kwds, p_max o = 2%nat -> p_dict o = true -> NoDup (map fst kwds) ->
  (forall items, args <> [VDict items]) ->
  match args, kwds with
    | [VDict items], _ =>
        if p_dict o then do s <- sort_items W items; parse_items o s else Err EInvalidArgument
    | _, [] => Ok []
    | _, _ => if p_dict o then parse_items o (sort_kwds kwds) else Err EInvalidArgument
    end = Ok (batches (sort_kwds kwds)).
Proof.
  intros W o args kwds M D N H. rewrite D, (parse_items_batches o _ M).
  destruct args as [|a [|b r]]; destruct kwds; try reflexivity; destruct a; try reflexivity; exfalso; eapply H; reflexivity.
Qed.
Lemma batches_app : forall a b, batches (a ++ b) = batches a ++ batches b.
Proof. intros. apply map_app. Qed.
Lemma dict_not_group : forall items l, ~ group (VDict items) l.
Proof. intros items l [H|H]; discriminate. Qed.

Lemma pair_contract : forall W args kwds, keys_ok args kwds ->
  (exists ps, pair_args args kwds ps /\ parse_args W pair_opts args kwds = Ok (batches ps)) \/
  (parse_args W pair_opts args kwds = Err EInvalidArgument /\ forall ps, ~ pair_args args kwds ps).
Proof.
  intros W args kwds [Nk Kd]. pose proof (sort_kwds_order kwds Nk) as SK.
  assert (LC := mapM_cases _ _ _ (parse_list_item pair_opts) (fun p => [fst p; snd p]) pair_item EInvalidArgument pair_item_cases).
  assert (GEN : List.length args <> 1%nat -> (forall a b, args = [a; b] -> ~ scalar a) ->
     (do first <- parse_list pair_opts args; Ok (first ++ batches (sort_kwds kwds))) = parse_args W pair_opts args kwds ->
     (exists ps, pair_args args kwds ps /\ parse_args W pair_opts args kwds = Ok (batches ps)) \/
     (parse_args W pair_opts args kwds = Err EInvalidArgument /\ forall ps, ~ pair_args args kwds ps)).
  { intros L1 L2 <-. destruct (LC args) as [[ps [P E]]|[E N]]; unfold parse_list; rewrite E.
    - left. exists (ps ++ sort_kwds kwds). split; [now apply pa_items|]. now rewrite batches_app.
    - right. split; [reflexivity|]. intros ps A. inversion A; subst.
      + eapply L2; eauto.
      + now apply L1.
      + now apply L1.
      + eapply N; eauto. }
  destruct args as [|a [|b [|c r]]].
  - apply GEN; [discriminate|intros; discriminate|]. unfold parse_args. cbn [parse_list mapM bind].
    rewrite (kw_result W pair_opts [] kwds eq_refl eq_refl Nk) by (intros; discriminate). reflexivity.
  - destruct (group_or_scalar a) as [[l G]|S].
    + assert (Q : parse_args W pair_opts [a] kwds = do first <- parse_list pair_opts l; Ok (first ++ batches (sort_kwds kwds))).
      { unfold parse_args. rewrite (kw_result W pair_opts [a] kwds eq_refl eq_refl Nk).
        2:{ intros items C. injection C as ->. eapply dict_not_group; eauto. }
        destruct G as [->| ->]; reflexivity. }
      rewrite Q. destruct (LC l) as [[ps [P E]]|[E N]]; unfold parse_list; rewrite E.
      * left. exists (ps ++ sort_kwds kwds). split; [eapply pa_list; eauto|]. now rewrite batches_app.
      * right. split; [reflexivity|]. intros ps A. inversion A; subst.
        -- match goal with G2 : group a _ |- _ => rewrite (group_fun _ _ _ G G2) in N end. eapply N; eauto.
        -- eapply dict_not_group; eauto.
        -- match goal with L : List.length _ <> _ |- _ => now apply L end.
    + assert (D : (exists items, a = VDict items) \/ (forall items, a <> VDict items)).
      { destruct a; try (right; intros; discriminate). left. eauto. }
      destruct D as [[items ->]|D].
      * left. destruct (sort_items_order W items (Kd items eq_refl)) as [out [E O]]. exists out. split; [now constructor|].
        unfold parse_args. cbn [p_min pair_opts Nat.ltb is_list_or_tuple negb andb Nat.leb List.length bind p_dict].
        cbn. rewrite E. cbn [bind]. rewrite (parse_items_batches pair_opts _ eq_refl). reflexivity.
      * right. split.
        -- unfold parse_args. rewrite (kw_result W pair_opts [a] kwds eq_refl eq_refl Nk).
           2:{ intros items C. injection C as ->. eapply D; reflexivity. }
           pose proof (parse_scalar pair_opts a S) as PS. cbn in PS.
           destruct a; try reflexivity; try (destruct k; try reflexivity; exfalso; eapply S; [left|right]; reflexivity).
           exfalso. eapply D; reflexivity.
        -- intros ps A. inversion A; subst; [eapply S; eauto|eapply D; reflexivity|match goal with L : List.length _ <> _ |- _ => now apply L end].
  - destruct (group_or_scalar a) as [[l G]|S].
    + apply GEN; [discriminate|intros x y C Sx; injection C as -> ->; eapply Sx; eauto|].
      unfold parse_args. rewrite (kw_result W pair_opts [a; b] kwds eq_refl eq_refl Nk) by (intros; discriminate).
      destruct G as [->| ->]; reflexivity.
    + left. exists ((a, b) :: sort_kwds kwds). split; [now constructor|].
      unfold parse_args. rewrite (kw_result W pair_opts [a; b] kwds eq_refl eq_refl Nk) by (intros; discriminate).
      apply scalar_lot in S. rewrite S. reflexivity.
  - apply GEN; [discriminate|intros; discriminate|].
    unfold parse_args. rewrite (kw_result W pair_opts (a :: b :: c :: r) kwds eq_refl eq_refl Nk) by (intros; discriminate).
    cbn [List.length p_min p_max pair_opts Nat.ltb Nat.leb]. rewrite !andb_false_r.
    destruct a; try reflexivity. destruct k; reflexivity.
Qed.

Lemma alias_contract : forall W args kwds, keys_ok args kwds ->
  (exists ps, alias_args args kwds ps /\ parse_args W alias_opts args kwds = Ok (batches ps)) \/
  (parse_args W alias_opts args kwds = Err EInvalidArgument /\ forall ps, ~ alias_args args kwds ps).
Proof.
  intros W args kwds [Nk Kd]. pose proof (sort_kwds_order kwds Nk) as SK.
  assert (D : (exists items, args = [VDict items]) \/ (forall items, args <> [VDict items])).
  { destruct args as [|a [|b r]]; try (right; intros; discriminate).
    destruct a; try (right; intros; discriminate). left. eauto. }
  destruct D as [[items ->]|D].
  - left. destruct (sort_items_order W items (Kd items eq_refl)) as [out [E O]]. exists out. split; [now constructor|].
    unfold parse_args. cbn. rewrite E. cbn [bind]. rewrite (parse_items_batches alias_opts _ eq_refl). reflexivity.
  - assert (Q : parse_args W alias_opts args kwds = do first <- parse_list alias_opts args; Ok (first ++ batches (sort_kwds kwds))).
    { unfold parse_args. rewrite (kw_result W alias_opts args kwds eq_refl eq_refl Nk D).
      destruct args as [|a r]; [reflexivity|]. cbn [p_min alias_opts Nat.ltb Nat.leb andb].
      destruct a; try reflexivity; try (destruct r; reflexivity).
      - destruct k, r; reflexivity.
      - destruct r; [exfalso; eapply D; reflexivity|reflexivity]. }
    rewrite Q.
    destruct (mapM_cases _ _ _ (parse_list_item alias_opts) (fun p => [fst p; snd p]) alias_item EInvalidArgument alias_item_cases args)
      as [[ps [P E]]|[E N]]; unfold parse_list; rewrite E.
    + left. exists (ps ++ sort_kwds kwds). split; [now apply aa_items|]. now rewrite batches_app.
    + right. split; [reflexivity|]. intros ps A. inversion A; subst; [eapply D; reflexivity|eapply N; eauto].
Qed.
Lemma batches_inj : forall a b, batches a = batches b -> a = b.
Proof.
  induction a as [|[x y] a IH]; intros [|[x' y'] b] H; try discriminate; [reflexivity|].
  simpl in H. injection H as -> -> H. f_equal. now apply IH.
Qed.
Lemma Forall2_fun : forall A B (P : A -> B -> Prop), (forall a b c, P a b -> P a c -> b = c) ->
  forall l m n, Forall2 P l m -> Forall2 P l n -> m = n.
Proof.
  intros A B P F l. induction l as [|x l IH]; intros m n H1 H2; inversion H1; subst; inversion H2; subst; [reflexivity|].
  f_equal; eauto.
Qed.
Lemma pair_item_fun : forall v p q, pair_item v p -> pair_item v q -> p = q.
Proof. intros v p q [l [G P]] [m [G' P']]. rewrite <- (group_fun _ _ _ G G') in P'. eapply padded_fun; eauto. Qed.
Lemma alias_item_fun : forall v p q, alias_item v p -> alias_item v q -> p = q.
Proof.
  intros v p q [[l [G P]]|[S ->]] [[m [G' P']]|[S' ->]].
  - rewrite <- (group_fun _ _ _ G G') in P'. eapply padded_fun; eauto.
  - exfalso. eapply S'; eauto.
  - exfalso. eapply S; eauto.
  - reflexivity.
Qed.
Lemma pair_args_fun : forall args kwds p q, pair_args args kwds p -> pair_args args kwds q -> p = q.
Proof.
  intros args kwds p q H1 H2.
  inversion H1 as [a b kw kws S K|a l ps kw kws G F K|items ps kw K|args' ps kw kws L1 L2 F K]; subst;
  inversion H2 as [a' b' kw' kws' S' K'|a' l' ps' kw' kws' G' F' K'|items' ps' kw' K'|args'' ps' kw' kws' L1' L2' F' K']; subst;
    try (exfalso; match goal with L : List.length _ <> _ |- _ => now apply L end);
    try (exfalso; match goal with L : forall a b, _ = _ -> ~ scalar a |- _ => eapply L; eauto; fail end);
    try (exfalso; eapply dict_not_group; eauto; fail).
  - f_equal. eapply key_order_unique; eauto.
  - pose proof (group_fun _ _ _ G G') as Q. subst l'. f_equal; [eapply Forall2_fun; eauto using pair_item_fun|eapply key_order_unique; eauto].
  - eapply key_order_unique; eauto.
  - f_equal; [eapply Forall2_fun; eauto using pair_item_fun|eapply key_order_unique; eauto].
Qed.
Lemma alias_args_fun : forall args kwds p q, alias_args args kwds p -> alias_args args kwds q -> p = q.
Proof.
  intros args kwds p q H1 H2.
  inversion H1 as [items ps kw K|args' ps kw kws L1 F K]; subst;
  inversion H2 as [items' ps' kw' K'|args'' ps' kw' kws' L1' F' K']; subst;
    try (exfalso; match goal with L : forall i, _ <> _ |- _ => eapply L; reflexivity end).
  - eapply key_order_unique; eauto.
  - f_equal; [eapply Forall2_fun; eauto using alias_item_fun|eapply key_order_unique; eauto].
Qed.
Lemma pair_contract_iff : forall W args kwds, keys_ok args kwds ->
  (forall ps, parse_args W pair_opts args kwds = Ok (map (fun p => [fst p; snd p]) ps) <-> pair_args args kwds ps) /\
  ((forall ps, ~ pair_args args kwds ps) -> parse_args W pair_opts args kwds = Err EInvalidArgument) /\
  (forall bs, parse_args W pair_opts args kwds = Ok bs -> exists ps, bs = map (fun p => [fst p; snd p]) ps).
Proof.
  intros W args kwds K. destruct (pair_contract W args kwds K) as [[ps [P E]]|[E N]].
  - split; [|split].
    + intros qs. rewrite E. fold (batches qs). split.
      * intros H. injection H as H. apply batches_inj in H. now subst.
      * intros H. now rewrite (pair_args_fun _ _ _ _ P H).
    + intros H. exfalso. eapply H; eauto.
    + intros bs H. rewrite E in H. injection H as <-. now exists ps.
  - split; [|split]; [|auto|intros bs H; congruence]. intros ps. rewrite E. split; [discriminate|]. intros H. exfalso. eapply N; eauto.
Qed.
Lemma alias_contract_iff : forall W args kwds, keys_ok args kwds ->
  (forall ps, parse_args W alias_opts args kwds = Ok (map (fun p => [fst p; snd p]) ps) <-> alias_args args kwds ps) /\
  ((forall ps, ~ alias_args args kwds ps) -> parse_args W alias_opts args kwds = Err EInvalidArgument) /\
  (forall bs, parse_args W alias_opts args kwds = Ok bs -> exists ps, bs = map (fun p => [fst p; snd p]) ps).
Proof.
  intros W args kwds K. destruct (alias_contract W args kwds K) as [[ps [P E]]|[E N]].
  - split; [|split].
    + intros qs. rewrite E. fold (batches qs). split.
      * intros H. injection H as H. apply batches_inj in H. now subst.
      * intros H. now rewrite (alias_args_fun _ _ _ _ P H).
    + intros H. exfalso. eapply H; eauto.
    + intros bs H. rewrite E in H. injection H as <-. now exists ps.
  - split; [|split]; [|auto|intros bs H; congruence]. intros ps. rewrite E. split; [discriminate|]. intros H. exfalso. eapply N; eauto.
Qed.

(** ** C22 *)
Lemma sort_kwds_perm : forall k k', NoDup (map fst k) -> Permutation k k' -> sort_kwds k = sort_kwds k'.
Proof.
  intros k k' N P. eapply key_order_unique; [apply sort_kwds_order; exact N|].
  eapply key_order_perm; [apply Permutation_map, Permutation_sym, P|]. apply sort_kwds_order.
  eapply Permutation_NoDup; [apply Permutation_map, P|exact N].
Qed.
Lemma sortable_perm : forall i i', Permutation i i' -> sortable i -> sortable i'.
Proof.
  intros i i' P [N K]. split; [eapply Permutation_NoDup; [apply Permutation_map, P|exact N]|].
  destruct K as [K|K]; [left|right]; intros k Hk; apply K; eapply Permutation_in; try exact Hk; apply Permutation_sym, Permutation_map, P.
Qed.
Lemma sort_items_perm : forall W i i', sortable i -> Permutation i i' -> sort_items W i = sort_items W i'.
Proof.
  intros W i i' S P. destruct (sort_items_order W i S) as [o [E O]].
  destruct (sort_items_order W i' (sortable_perm _ _ P S)) as [o' [E' O']]. rewrite E, E'. f_equal.
  eapply key_order_unique; [exact O|]. eapply key_order_perm; [apply Permutation_sym, P|exact O'].
Qed.
Lemma bind_same : forall A B (x : res A) (f g : A -> res B), (forall a, f a = g a) -> bind x f = bind x g.
Proof. intros A B [a|e] f g H; simpl; auto. Qed.
Lemma parse_reordered : forall W o a k a' k', reordered a k a' k' -> parse_args W o a k = parse_args W o a' k'.
Proof.
  intros W o a k a' k' R. destruct R as [args kwds kwds' N P|items items' kwds N S P].
  - unfold parse_args. apply bind_same. intros first. f_equal.
    rewrite <- (sort_kwds_perm _ _ N P).
    assert (Z : kwds = [] <-> kwds' = []).
    { split; intros ->; [apply Permutation_nil in P|apply Permutation_sym, Permutation_nil in P]; auto. }
    destruct kwds, kwds'; try reflexivity; try (exfalso; destruct Z as [Z1 Z2]; (now specialize (Z1 eq_refl)) || (now specialize (Z2 eq_refl))).
  - unfold parse_args. cbn [List.length is_list_or_tuple negb]. rewrite <- (sort_items_perm W _ _ S P). 
    destruct (Nat.ltb 1 (p_min o) && true && Nat.leb (p_min o) 1 && Nat.leb 1 (p_max o)) eqn:Q; [|reflexivity].
    exfalso. apply andb_prop in Q. destruct Q as [Q _]. apply andb_prop in Q. destruct Q as [Q Q'].
    apply andb_prop in Q. destruct Q as [Q _]. apply Nat.ltb_lt in Q. apply Nat.leb_le in Q'. lia.
Qed.
Lemma reordered_kwds_nil : forall a k a' k', reordered a k a' k' -> (k = [] <-> k' = []).
Proof.
  intros a k a' k' R. destruct R as [args kwds kwds' N P|items items' kwds N S P]; [|tauto].
  split; intros ->; [apply Permutation_nil in P|apply Permutation_sym, Permutation_nil in P]; auto.
Qed.
Lemma where_reordered : forall W c ps a k a' k', reordered a k a' k' -> conds_where W c ps a k = conds_where W c ps a' k'.
Proof.
  intros W c ps a k a' k' R. pose proof (parse_reordered W pair_opts _ _ _ _ R) as P. pose proof (reordered_kwds_nil _ _ _ _ R) as Z.
  unfold conds_where. rewrite P. destruct R as [args kwds kwds' N Q|items items' kwds N S Q].
  - destruct kwds, kwds'; try reflexivity; exfalso; destruct Z as [Z1 Z2]; (now specialize (Z1 eq_refl)) || (now specialize (Z2 eq_refl)).
  - reflexivity.
Qed.
Lemma values_reordered : forall W ps a k a' k', reordered a k a' k' -> values_set W ps a k = values_set W ps a' k'.
Proof.
  intros W ps a k a' k' R. pose proof (parse_reordered W pair_opts _ _ _ _ R) as P. pose proof (reordered_kwds_nil _ _ _ _ R) as Z.
  unfold values_set. rewrite P. destruct R as [args kwds kwds' N Q|items items' kwds N S Q].
  - destruct kwds, kwds'; try reflexivity; exfalso; destruct Z as [Z1 Z2]; (now specialize (Z1 eq_refl)) || (now specialize (Z2 eq_refl)).
  - reflexivity.
Qed.
Lemma columns_reordered : forall W ps a k a' k', reordered a k a' k' -> columns_add W ps a k = columns_add W ps a' k'.
Proof. intros. unfold columns_add. now erewrite parse_reordered by eauto. Qed.
Lemma orders_reordered : forall W ps a k a' k', reordered a k a' k' -> orders_add W ps a k = orders_add W ps a' k'.
Proof. intros. unfold orders_add. now erewrite parse_reordered by eauto. Qed.
Lemma filter_reordered : forall a k a' k', reordered a k a' k' -> reordered (filter truthy a) k (filter truthy a') k'.
Proof.
  intros a k a' k' R. destruct R as [args kwds kwds' N P|items items' kwds N S P]; [now constructor|].
  simpl. assert (Z : is_nilb items = is_nilb items').
  { destruct items, items'; try reflexivity; [apply Permutation_nil in P|apply Permutation_sym, Permutation_nil in P]; discriminate. }
  rewrite <- Z. destruct (is_nilb items); simpl; [now apply re_kwds|now constructor].
Qed.
Lemma tables_reordered : forall W ps a k a' k', reordered a k a' k' -> tables_set W ps a k = tables_set W ps a' k'.
Proof. intros. unfold tables_set. now erewrite parse_reordered by (apply filter_reordered; eauto). Qed.
Lemma upd_last_ext : forall A B (f g : A -> A * B) l, (forall x, f x = g x) -> upd_last f l = upd_last g l.
Proof.
  intros A B f g l H. induction l as [|x l IH]; [reflexivity|]. simpl. rewrite IH, H. reflexivity.
Qed.
Lemma on_reordered : forall W ts a k a' k', reordered a k a' k' -> tables_on W ts a k = tables_on W ts a' k'.
Proof.
  intros W ts a k a' k' R. unfold tables_on, on_last_table. erewrite upd_last_ext; [reflexivity|].
  intros t. unfold table_on. erewrite upd_last_ext; [reflexivity|]. intros j. simpl. now rewrite (where_reordered _ _ _ _ _ _ _ R).
Qed.
Lemma order_irrelevant : forall W a k a' k', reordered a k a' k' ->
  (forall q c, In c [SColumns; SFrom; SOn; SWhere; SHaving; SGroupBy; SOrderBy] -> sel_step W q (c a k) = sel_step W q (c a' k')) /\
  (forall q, ins_step W q (IValues a k) = ins_step W q (IValues a' k')) /\
  (forall q c, In c [USet; UWhere; UOn] -> upd_step W q (c a k) = upd_step W q (c a' k')) /\
  (forall q c, In c [DFrom; DWhere; DOn] -> del_step W q (c a k) = del_step W q (c a' k')) /\
  mk_Q W a k = mk_Q W a' k' /\ mk_Not W a k = mk_Not W a' k'.
Proof.
  intros W a k a' k' R. repeat split.
  - intros q c H. simpl in H. destruct H as [<-|[<-|[<-|[<-|[<-|[<-|[<-|[]]]]]]]]; cbn [sel_step].
    + now rewrite (columns_reordered _ _ _ _ _ _ R).
    + now rewrite (tables_reordered _ _ _ _ _ _ R).
    + now rewrite (on_reordered _ _ _ _ _ _ R).
    + now rewrite (where_reordered _ _ _ _ _ _ _ R).
    + now rewrite (where_reordered _ _ _ _ _ _ _ R).
    + now rewrite (orders_reordered _ _ _ _ _ _ R).
    + now rewrite (orders_reordered _ _ _ _ _ _ R).
  - intros [rp ig tabs rows dup cf upd]. cbn [ins_step]. unfold rows_add. now rewrite (values_reordered _ _ _ _ _ _ R).
  - intros [ig t v w al] c H. simpl in H. destruct H as [<-|[<-|[<-|[]]]]; cbn [upd_step].
    + now rewrite (values_reordered _ _ _ _ _ _ R).
    + now rewrite (where_reordered _ _ _ _ _ _ _ R).
    + now rewrite (on_reordered _ _ _ _ _ _ R).
  - intros [ig t v w al] c H. simpl in H. destruct H as [<-|[<-|[<-|[]]]]; cbn [del_step].
    + now rewrite (tables_reordered _ _ _ _ _ _ R).
    + now rewrite (where_reordered _ _ _ _ _ _ _ R).
    + now rewrite (on_reordered _ _ _ _ _ _ R).
  - unfold mk_Q. now rewrite (where_reordered _ _ _ _ _ _ _ R).
  - unfold mk_Not. now rewrite (where_reordered _ _ _ _ _ _ _ R).
Qed.
(** Keywords of on_duplicate_key_update, on every backend. *)
Lemma ondup_reordered : forall W q a k k', NoDup (map fst k) -> Permutation k k' ->
  ins_step W q (IOnDup a k) = ins_step W q (IOnDup a k').
Proof.
  intros W [rp ig tabs rows dup cf upd] a k k' N P. cbn [ins_step].
  rewrite (values_reordered W dup a k a k' (re_kwds _ _ _ N P)).
  assert (C : conflict_set W (cf, upd) a k = conflict_set W (cf, upd) a k').
  { unfold conflict_set. destruct a as [|x r]; [reflexivity|]. destruct x; try reflexivity.
    now rewrite (values_reordered W _ r k r k' (re_kwds _ _ _ N P)). }
  rewrite C. replace (is_nilb k') with (is_nilb k); [reflexivity|].
  destruct k, k'; try reflexivity; [apply Permutation_nil in P|apply Permutation_sym, Permutation_nil in P]; discriminate.
Qed.

(** ** C21 *)
Lemma scalar_no_pair : forall v p, scalar v -> ~ pair_item v p.
Proof. intros v p S [l [G _]]. eapply S; eauto. Qed.
Lemma Forall2_in_l : forall A B (P : A -> B -> Prop) l m x, Forall2 P l m -> In x l -> exists y, P x y.
Proof. intros A B P l m x F. induction F; intros I; [destruct I|]. destruct I as [<-|I]; eauto. Qed.
Lemma scalar_items_no_args : forall args kwds, has_scalar_item args -> forall ps, ~ pair_args args kwds ps.
Proof.
  intros args kwds H ps A.
  destruct H as [[a [l [x [-> [G [I S]]]]]]|[[a [-> [S D]]]|[[L [x [I S]]]|[a [b [-> [S S']]]]]]].
  - inversion A as [|a' l' ps' kw' kws' G' F' K'|items' ps' kw' K'|args'' ps' kw' kws' L1' L2' F' K']; subst.
    + rewrite (group_fun _ _ _ G G') in I. destruct (Forall2_in_l _ _ _ _ _ _ F' I) as [p P]. eapply scalar_no_pair; eauto.
    + eapply dict_not_group; eauto.
    + now apply L1'.
  - inversion A as [|a' l' ps' kw' kws' G' F' K'|items' ps' kw' K'|args'' ps' kw' kws' L1' L2' F' K']; subst.
    + eapply S; eauto.
    + eapply D; reflexivity.
    + now apply L1'.
  - inversion A as [|a' l' ps' kw' kws' G' F' K'|items' ps' kw' K'|args'' ps' kw' kws' L1' L2' F' K']; subst; simpl in L; try lia.
    destruct (Forall2_in_l _ _ _ _ _ _ F' I) as [p P]. eapply scalar_no_pair; eauto.
  - inversion A as [|a' l' ps' kw' kws' G' F' K'|items' ps' kw' K'|args'' ps' kw' kws' L1' L2' F' K']; subst.
    + contradiction.
    + destruct (Forall2_in_l _ _ _ _ _ b F' (or_intror (or_introl eq_refl))) as [p P]. eapply scalar_no_pair; eauto.
Qed.
Lemma scalar_items_rejected : forall W k ps args kwds, keys_ok args kwds -> has_scalar_item args ->
  Exists (fun v => ~ is_sql v = true) args ->
  conds_where W k ps args kwds = (ps, Err EInvalidArgument) /\
  values_set W ps args kwds = (ps, Err EInvalidArgument).
Proof.
  intros W k ps args kwds K H X.
  destruct (pair_contract_iff W args kwds K) as [_ [C _]]. specialize (C (scalar_items_no_args _ _ H)).
  assert (F : forallb is_conds args = false).
  { destruct (forallb is_conds args) eqn:Q; [|reflexivity]. rewrite forallb_forall in Q. apply Exists_exists in X.
    destruct X as [v [I N]]. exfalso. apply N. specialize (Q v I). destruct v; try discriminate; reflexivity. }
  assert (S : forall a, args = [a] -> is_sql a = false).
  { intros a ->. inversion X as [? ? N|? ? N]; subst; [destruct (is_sql a); congruence|inversion N]. }
  unfold conds_where, values_set. rewrite C, F, andb_false_r.
  destruct args as [|a [|b r]]; destruct kwds; try (split; reflexivity); rewrite (S a eq_refl); split; reflexivity.
Qed.
