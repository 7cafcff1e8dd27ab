(** Proofs about the order of SQL objects and dictionaries with such keys: C72, C73. *)
From Coq Require Import Lia Permutation Sorted.
From Verif Require Import Base BaseFacts NumFmt Value Eq Render ParseArgs Build Queries History Order SpecArgs SpecOrder PfArgs.
Open Scope N_scope.

Lemma before_spec : forall s t, sltb s t = true <-> before s t.
Proof. exact sltb_before. Qed.
Lemma text_cases : forall E v s, compared_by_text v -> text_of (text E) v s ->
  v = VStr s \/ (is_sql v = true /\ textual_eq v = true /\ text E v = Ok s).
Proof. intros E v s C [->|[Q T]]; [now left|right]. split; [exact Q|]. split; [|exact T]. destruct v; try contradiction C; try discriminate Q; reflexivity. Qed.
Lemma textual_py_eq : forall E a b s t, compared_by_text a -> compared_by_text b -> is_sql a = true -> text_of (text E) a s -> text_of (text E) b t ->
  py_eq E a b = Ok (seqb s t).
Proof.
  intros E a b s t Ca Cb Qa Ta Tb. destruct (text_cases E a s Ca Ta) as [->|[_ [Xa Sa]]]; [discriminate Qa|].
  assert (P : py_eq E a b = match b with
    | VStr s => do x <- text E a; Ok (seqb x s)
    | _ => if is_sql b then (do x <- text E a; do y <- text E b; Ok (seqb x y)) else Ok false
    end) by (unfold py_eq; destruct a; try discriminate Xa; reflexivity).
  rewrite P, Sa. destruct (text_cases E b t Cb Tb) as [->|[Qb [_ Sb]]]; [reflexivity|].
  cbn [bind]. destruct b; try discriminate Qb; cbn [is_sql]; rewrite Sb; reflexivity.
Qed.
Lemma textual_obj_lt : forall E a b s t, compared_by_text a -> compared_by_text b -> is_sql a = true -> text_of (text E) a s -> text_of (text E) b t ->
  obj_lt E a b = Ok (Some (sltb s t)).
Proof.
  intros E a b s t Ca Cb Qa Ta Tb. destruct (text_cases E a s Ca Ta) as [->|[_ [Xa Sa]]]; [discriminate Qa|].
  destruct (text_cases E b t Cb Tb) as [->|[Qb [_ Sb]]]; [unfold obj_lt; now rewrite Sa|].
  destruct b; try discriminate Qb; cbn [obj_lt is_sql]; rewrite Sa; cbn [bind]; rewrite Sb; reflexivity.
Qed.
Lemma sltb_irrefl : forall s, sltb s s = false.
Proof. intros s. destruct (sltb s s) eqn:Q; [|reflexivity]. apply sltb_before in Q. now apply before_irrefl in Q. Qed.
Lemma sltb_three : forall s t, sltb t s = (negb (sltb s t) && negb (seqb s t))%bool.
Proof.
  intros s t. destruct (seqb s t) eqn:Q.
  - apply seqb_eq in Q. subst. rewrite sltb_irrefl. reflexivity.
  - assert (N : s <> t) by (intros ->; now rewrite seqb_refl in Q). destruct (sltb s t) eqn:L; cbn [negb andb].
    + destruct (sltb t s) eqn:L'; [|reflexivity]. apply sltb_before in L, L'. exfalso. eapply before_irrefl, before_trans; eauto.
    + destruct (sltb t s) eqn:L'; [reflexivity|]. exfalso. assert (M : before t s) by (apply (before_total t s L); congruence). apply sltb_before in M. congruence.
Qed.
Definition by_text (o : cmpop) (s t : str) : bool :=
  match o with OLt => sltb s t | OGt => sltb t s | OLe => sltb s t || seqb s t | OGe => negb (sltb s t) end.
Lemma textual_obj_cmp : forall E o a b s t, compared_by_text a -> compared_by_text b -> is_sql a = true -> text_of (text E) a s -> text_of (text E) b t ->
  obj_cmp E o a b = Ok (Some (by_text o s t)).
Proof.
  intros E o a b s t Ca Cb Qa Ta Tb. pose proof (textual_obj_lt E a b s t Ca Cb Qa Ta Tb) as L. pose proof (textual_py_eq E a b s t Ca Cb Qa Ta Tb) as P.
  destruct o; cbn [obj_cmp by_text]; [exact L|unfold obj_gt|unfold obj_le|unfold obj_ge]; rewrite L; cbn [bind].
  - rewrite (sltb_three s t). destruct (sltb s t); [reflexivity|]. rewrite P. cbn [bind]. destruct (seqb s t); reflexivity.
  - destruct (sltb s t); [reflexivity|]. rewrite P. reflexivity.
  - reflexivity.
Qed.
Lemma seqb_sym : forall s t, seqb s t = seqb t s.
Proof. intros s t. destruct (seqb s t) eqn:Q; [apply seqb_eq in Q; subst; now rewrite seqb_refl|]. destruct (seqb t s) eqn:R; [|reflexivity]. apply seqb_eq in R. subst. now rewrite seqb_refl in Q. Qed.
Lemma by_text_mirror : forall o s t, by_text (mirror o) t s = by_text o s t.
Proof.
  intros [] s t; cbn [mirror by_text]; try reflexivity.
  - rewrite (sltb_three s t). destruct (sltb s t) eqn:L; cbn [negb andb orb]; [reflexivity|]. now rewrite negb_involutive.
  - rewrite (sltb_three t s). destruct (sltb t s), (seqb t s); reflexivity.
Qed.
Lemma textual_cmp : forall E o a b s t, compared_by_text a -> compared_by_text b -> is_sql a = true \/ is_sql b = true ->
  text_of (text E) a s -> text_of (text E) b t -> py_cmp E o a b = Ok (by_text o s t).
Proof.
  intros E o a b s t Ca Cb Q Ta Tb. unfold py_cmp.
  assert (N : negb (is_sql a) && negb (is_sql b) = false) by (destruct Q as [-> | ->]; [reflexivity|apply andb_false_r]). rewrite N.
  assert (L : (if is_sql a then obj_cmp E o a b else Ok None) = Ok (if is_sql a then Some (by_text o s t) else None)).
  { destruct (is_sql a) eqn:A; [|reflexivity]. now apply textual_obj_cmp. }
  assert (R : (if is_sql b then obj_cmp E (mirror o) b a else Ok None) = Ok (if is_sql b then Some (by_text o s t) else None)).
  { destruct (is_sql b) eqn:B; [|reflexivity]. rewrite <- by_text_mirror. now apply textual_obj_cmp. }
  rewrite L, R. destruct (subclass a b), (is_sql a), (is_sql b); try reflexivity; destruct Q; discriminate.
Qed.
Lemma order_by_text : forall E a b s t, compared_by_text a -> compared_by_text b -> is_sql a = true \/ is_sql b = true ->
  text_of (text E) a s -> text_of (text E) b t ->
  exists lt gt le ge eq, py_cmp E OLt a b = Ok lt /\ py_cmp E OGt a b = Ok gt /\ py_cmp E OLe a b = Ok le /\ py_cmp E OGe a b = Ok ge /\
    py_eq E a b = Ok eq /\
    (lt = true <-> before s t) /\ (gt = true <-> before t s) /\ (le = true <-> before s t \/ s = t) /\ (ge = true <-> before t s \/ s = t) /\
    (eq = true <-> s = t).
Proof.
  intros E a b s t Ca Cb Q Ta Tb.
  assert (P : py_eq E a b = Ok (seqb s t)).
  { destruct (is_sql a) eqn:A; [now apply textual_py_eq|]. destruct Q as [Q|Q]; [discriminate Q|].
    destruct (text_cases E a s Ca Ta) as [->|[X _]]; [|congruence]. destruct (text_cases E b t Cb Tb) as [->|[_ [X Y]]]; [discriminate Q|].
    unfold py_eq. destruct b; try discriminate X; cbn [pyeq textual_eq]; rewrite Y; cbn [bind]; now rewrite seqb_sym. }
  exists (by_text OLt s t), (by_text OGt s t), (by_text OLe s t), (by_text OGe s t), (seqb s t).
  do 4 (split; [now apply textual_cmp|]). split; [exact P|]. cbn [by_text].
  assert (EQ : seqb s t = true <-> s = t) by (split; [apply seqb_eq|intros ->; apply seqb_refl]).
  split; [apply sltb_before|]. split; [apply sltb_before|]. split; [|split; [|exact EQ]].
  - rewrite orb_true_iff, sltb_before, EQ. tauto.
  - rewrite <- (sltb_before t s), <- EQ, (sltb_three s t). assert (X : sltb s t = true -> seqb s t = true -> False).
    { intros L R. apply seqb_eq in R. subst. now rewrite sltb_irrefl in L. }
    destruct (sltb s t), (seqb s t); cbn [negb andb]; intuition discriminate.
Qed.

(** ** Dictionaries *)
Lemma text_key : forall W k s, text_of (w_str W) k s -> dict_key W k = Ok (DKStr s).
Proof. intros W k s [->|[Q T]]; [reflexivity|]. destruct k; try discriminate Q; cbn [dict_key is_sql]; rewrite T; reflexivity. Qed.
Lemma keys_text : forall W (items : list (val * val)) texts, Forall2 (text_of (w_str W)) (map fst items) texts -> mapM (fun p => dict_key W (fst p)) items = Ok (map DKStr texts).
Proof.
  intros W items. induction items as [|p items IH]; intros texts F; inversion F as [|? s ? ts T F']; subst; [reflexivity|].
  cbn [mapM map]. now rewrite (text_key _ _ _ T), (IH ts F').
Qed.
Lemma no_dup_text : forall texts, NoDup texts -> dk_dup (map DKStr texts) = false.
Proof.
  induction texts as [|s texts IH]; intros N; [reflexivity|]. inversion N as [|? ? N1 N2]; subst. cbn [map dk_dup]. apply orb_false_iff. split; [|auto].
  rewrite existsb_map. destruct (existsb _ texts) eqn:Q; [|reflexivity]. apply existsb_exists in Q. destruct Q as [t [I T]]. cbn [dk_eq] in T. apply seqb_eq in T. subst. contradiction.
Qed.
Lemma text_sorted : forall W items texts, Forall2 (text_of (w_str W)) (map fst items) texts -> NoDup texts ->
  exists out, sort_items W items = Ok out /\ in_text_order (w_str W) items out.
Proof.
  intros W items texts F N.
  assert (G : forall items texts, Forall2 (text_of (w_str W)) (map fst items) texts -> NoDup texts ->
    in_text_order (w_str W) items (map snd (osort dk_lt (combine (map DKStr texts) items)))).
  { clear. intros items texts F N.
    set (K := fun x : keyed => exists s, fst x = DKStr s /\ text_of (w_str W) (fst (snd x)) s).
    assert (FK : Forall K (combine (map DKStr texts) items)).
    { revert texts F N. induction items as [|p items IH]; intros texts F N; inversion F as [|? s ? ts T F']; subst; [constructor|]. inversion N; subst.
      cbn [map combine]. constructor; [exists s; auto|auto]. }
    assert (LEN : map snd (combine (map DKStr texts) items) = items).
    { clear FK N. revert texts F. induction items as [|p items IH]; intros texts F; inversion F; subst; [reflexivity|]. cbn [map combine snd]. f_equal. now apply IH. }
    assert (ST : StronglySorted (fun x y : keyed => exists s t, fst x = DKStr s /\ fst y = DKStr t /\ before s t) (osort dk_lt (combine (map DKStr texts) items))).
    { apply (osort_sorted dk_lt _ (fun x y => exists s t, fst x = DKStr s /\ fst y = DKStr t /\ s <> t)).
      - intros a b c [s [t [A [B C]]]] [t' [u [B' [D G]]]]. assert (t' = t) by congruence. subst t'. exists s, u. split; [exact A|]. split; [exact D|]. eapply before_trans; eauto.
      - intros x y [s [t [A [B C]]]]. unfold dk_lt. rewrite A, B. destruct (sltb t s) eqn:L.
        + exists t, s. split; [congruence|]. split; [congruence|]. now apply sltb_before.
        + exists s, t. split; [congruence|]. split; [congruence|]. now apply before_total.
      - clear FK LEN. revert texts F N. induction items as [|p items IH]; intros texts F N; inversion F as [|? s ? ts T F']; subst; [constructor|]. inversion N as [|? ? N1 N2]; subst.
        cbn [map combine]. constructor; [|auto]. rewrite Forall_forall. intros [k q] I. apply in_combine_l in I. apply in_map_iff in I. destruct I as [t [<- I]].
        exists s, t. split; [reflexivity|]. split; [reflexivity|]. intros ->. contradiction. }
    split.
    - rewrite <- LEN at 1. apply Permutation_map, osort_perm.
    - assert (FO : Forall K (osort dk_lt (combine (map DKStr texts) items))).
      { rewrite Forall_forall in FK |- *. intros x I. apply FK. eapply Permutation_in; [apply Permutation_sym, osort_perm|exact I]. }
      revert ST FO. generalize (osort dk_lt (combine (map DKStr texts) items)) as l. clear. intros l ST FO.
      exists (map (fun x : keyed => match fst x with DKStr s => s | _ => [] end) l). induction l as [|x l IH]; [split; constructor|].
      inversion ST as [|? ? S1 S2]; subst. inversion FO as [|? ? [s [X1 X2]] O2]; subst. destruct (IH S1 O2) as [I1 I2]. split.
      + cbn [map]. rewrite X1. constructor; assumption.
      + cbn [map]. constructor; [exact I2|]. rewrite Forall_map. eapply Forall_impl; [|exact S2]. intros y [s' [t [Y1 [Y2 Y3]]]]. rewrite Y1, Y2. exact Y3. }
  destruct items as [|p [|p' items]].
  - exists []. split; [reflexivity|]. split; [constructor|]. exists []. split; constructor.
  - exists [p]. split; [reflexivity|]. split; [constructor; constructor|]. exists texts. split; [exact F|].
    cbn [map] in F. inversion F as [|? s ? ts T F']; subst. inversion F'; subst. repeat constructor.
  - eexists. split; [|exact (G _ texts F N)]. unfold sort_items. rewrite (keys_text _ _ _ F). cbn [bind].
    assert (X : existsb is_dkother (map DKStr texts) = false) by (rewrite existsb_map; clear; induction texts; auto).
    assert (Y : forallb is_dkstr (map DKStr texts) = true) by (rewrite forallb_map; clear; induction texts; auto).
    rewrite X, (no_dup_text _ N), Y. reflexivity.
Qed.
Lemma text_order_unique : forall f items a b, in_text_order f items a -> in_text_order f items b -> a = b.
Proof.
  intros f items a b [P1 [t1 [F1 S1]]] [P2 [t2 [F2 S2]]].
  assert (U : forall v s t, text_of f v s -> text_of f v t -> s = t).
  { intros v s t [->|[Q T]] [R|[Q' T']]; try congruence; try (subst; discriminate). }
  apply (sorted_unique _ (fun p q : val * val => exists s t, text_of f (fst p) s /\ text_of f (fst q) t /\ before s t)).
  - intros x y z [s [t [A [B C]]]] [t' [u [B' [D G]]]]. rewrite (U _ _ _ B' B) in *. exists s, u. split; [exact A|]. split; [exact D|]. eapply before_trans; eauto.
  - intros x [s [t [A [B C]]]]. rewrite (U _ _ _ A B) in C. now apply before_irrefl in C.
  - clear -F1 S1. revert t1 F1 S1. induction a as [|p a IH]; intros t1 F S; [constructor|]. inversion F as [|? s ? ts T F']; subst. inversion S as [|? ? S1 S2]; subst.
    constructor; [eauto|]. clear IH S1 F S. revert ts F' S2. induction a as [|q a IH]; intros ts F' S2; [constructor|]. inversion F' as [|? s' ? ts' T' F'']; subst. inversion S2; subst. constructor; eauto.
  - clear -F2 S2. revert t2 F2 S2. induction b as [|p a IH]; intros t1 F S; [constructor|]. inversion F as [|? s ? ts T F']; subst. inversion S as [|? ? S1 S2]; subst.
    constructor; [eauto|]. clear IH S1 F S. revert ts F' S2. induction a as [|q a IH]; intros ts F' S2; [constructor|]. inversion F' as [|? s' ? ts' T' F'']; subst. inversion S2; subst. constructor; eauto.
  - etransitivity; [apply Permutation_sym; exact P1|exact P2].
Qed.
Lemma text_keys_perm : forall f i i', Permutation i i' -> text_keys f i -> text_keys f i'.
Proof.
  intros f i i' P [texts [F N]].
  assert (G : exists texts', Permutation texts texts' /\ Forall2 (text_of f) (map fst i') texts').
  { apply (Permutation_map fst) in P. revert P F. generalize (map fst i) as l. generalize (map fst i') as l'. clear. intros l' l P. revert texts. induction P; intros texts F.
    - inversion F; subst. exists []. split; constructor.
    - inversion F as [|? s ? ts T F']; subst. destruct (IHP ts F') as [ts' [P' F'']]. exists (s :: ts'). split; [now constructor|now constructor].
    - inversion F as [|? s ? ts T F']; subst. inversion F' as [|? s' ? ts' T' F'']; subst. exists (s' :: s :: ts'). split; [constructor|]. constructor; [exact T'|]. constructor; assumption.
    - destruct (IHP1 texts F) as [t1 [A1 B1]]. destruct (IHP2 t1 B1) as [t2 [A2 B2]]. exists t2. split; [etransitivity; eauto|exact B2]. }
  destruct G as [texts' [P' F']]. exists texts'. split; [exact F'|]. eapply Permutation_NoDup; eauto.
Qed.
Lemma text_sort_perm : forall W i i', text_keys (w_str W) i -> Permutation i i' -> sort_items W i = sort_items W i'.
Proof.
  intros W i i' S P. destruct (text_keys_perm _ _ _ P S) as [t' [F' N']]. destruct S as [t [F N]].
  destruct (text_sorted W i t F N) as [o [Q O]], (text_sorted W i' t' F' N') as [o' [Q' O']]. rewrite Q, Q'. f_equal.
  eapply text_order_unique; [exact O|]. destruct O' as [P' R']. split; [etransitivity; eauto|exact R'].
Qed.
Definition pair_or_alias (o : popts) : Prop := o = pair_opts \/ o = alias_opts.
Lemma text_parsed : forall W o items kwds, pair_or_alias o -> text_keys (w_str W) items ->
  exists out, parse_args W o [VDict items] kwds = Ok (map (fun p => [fst p; snd p]) out) /\ in_text_order (w_str W) items out.
Proof.
  intros W o items kwds O [texts [F N]]. destruct (text_sorted W items texts F N) as [out [S T]]. exists out. split; [|exact T].
  assert (I : forall l, parse_items o l = Ok (map (fun p => [fst p; snd p]) l)).
  { intros l. unfold parse_items. apply mapM_map. intros p _. destruct O as [-> | ->]; reflexivity. }
  assert (D : p_dict o = true /\ parse_args W o [VDict items] kwds = do x <- (do s <- sort_items W items; parse_items o s); Ok x).
  { destruct O as [-> | ->]; (split; [reflexivity|]); unfold parse_args; destruct kwds; reflexivity. }
  rewrite (proj2 D), S. cbn [bind]. rewrite I. reflexivity.
Qed.

(** ** Calls with the entries of a dict in another order *)
Section Dicts.
  Context (W : world) (i i' : list (val * val)) (k : kwargs) (SD : sort_items W i = sort_items W i') (SN : is_nilb i = is_nilb i').
  Lemma dict_parse : forall o, parse_args W o [VDict i] k = parse_args W o [VDict i'] k.
  Proof.
    intros o. unfold parse_args. cbn [List.length is_list_or_tuple negb]. rewrite <- SD.
    destruct (Nat.ltb 1 (p_min o) && true && Nat.leb (p_min o) 1 && Nat.leb 1 (p_max o)) eqn:Q; [|reflexivity].
    exfalso. apply andb_prop in Q. destruct Q as [Q _]. apply andb_prop in Q. destruct Q as [Q Q'].
    apply andb_prop in Q. destruct Q as [Q _]. apply Nat.ltb_lt in Q. apply Nat.leb_le in Q'. lia.
  Qed.
  Lemma dict_where : forall c ps, conds_where W c ps [VDict i] k = conds_where W c ps [VDict i'] k.
  Proof. intros c ps. unfold conds_where. rewrite dict_parse. reflexivity. Qed.
  Lemma dict_values : forall ps, values_set W ps [VDict i] k = values_set W ps [VDict i'] k.
  Proof. intros ps. unfold values_set. rewrite dict_parse. reflexivity. Qed.
  Lemma dict_tables : forall ps, tables_set W ps [VDict i] k = tables_set W ps [VDict i'] k.
  Proof.
    intros ps. unfold tables_set. cbn [filter truthy]. rewrite <- SN. destruct (is_nilb i); cbn [negb]; [reflexivity|].
    rewrite dict_parse. reflexivity.
  Qed.
  Lemma dict_on : forall ts, tables_on W ts [VDict i] k = tables_on W ts [VDict i'] k.
  Proof.
    intros ts. unfold tables_on, on_last_table. erewrite upd_last_ext; [reflexivity|].
    intros t. unfold table_on. erewrite upd_last_ext; [reflexivity|]. intros j. cbn beta. now rewrite dict_where.
  Qed.
  Lemma dict_calls :
    (forall q c, In c [SColumns; SFrom; SOn; SWhere; SHaving; SGroupBy; SOrderBy] -> sel_step W q (c [VDict i] k) = sel_step W q (c [VDict i'] k)) /\
    (forall q, ins_step W q (IValues [VDict i] k) = ins_step W q (IValues [VDict i'] k)) /\
    (forall q c, In c [USet; UWhere; UOn] -> upd_step W q (c [VDict i] k) = upd_step W q (c [VDict i'] k)) /\
    (forall q c, In c [DFrom; DWhere; DOn] -> del_step W q (c [VDict i] k) = del_step W q (c [VDict i'] k)) /\
    mk_Q W [VDict i] k = mk_Q W [VDict i'] k /\ mk_Not W [VDict i] k = mk_Not W [VDict i'] k.
  Proof.
    split; [|split; [|split; [|split; [|split]]]].
    - intros q c H. cbn [In] in H. destruct H as [<-|[<-|[<-|[<-|[<-|[<-|[<-|[]]]]]]]]; cbn [sel_step].
      + unfold columns_add. now rewrite dict_parse.
      + now rewrite dict_tables.
      + now rewrite dict_on.
      + now rewrite dict_where.
      + now rewrite dict_where.
      + unfold orders_add. now rewrite dict_parse.
      + unfold orders_add. now rewrite dict_parse.
    - intros [rp ig tabs rows dup cf upd]. cbn [ins_step]. unfold rows_add. now rewrite dict_values.
    - intros [ig t v w al] c H. cbn [In] in H. destruct H as [<-|[<-|[<-|[]]]]; cbn [upd_step].
      + now rewrite dict_values.
      + now rewrite dict_where.
      + now rewrite dict_on.
    - intros [ig t v w al] c H. cbn [In] in H. destruct H as [<-|[<-|[<-|[]]]]; cbn [del_step].
      + now rewrite dict_tables.
      + now rewrite dict_where.
      + now rewrite dict_on.
    - unfold mk_Q. now rewrite dict_where.
    - unfold mk_Not. now rewrite dict_where.
  Qed.
End Dicts.
Lemma text_keys_irrelevant : forall W i i' k, text_keys (w_str W) i -> Permutation i i' ->
  (forall q c, In c [SColumns; SFrom; SOn; SWhere; SHaving; SGroupBy; SOrderBy] -> sel_step W q (c [VDict i] k) = sel_step W q (c [VDict i'] k)) /\
  (forall q, ins_step W q (IValues [VDict i] k) = ins_step W q (IValues [VDict i'] k)) /\
  (forall q c, In c [USet; UWhere; UOn] -> upd_step W q (c [VDict i] k) = upd_step W q (c [VDict i'] k)) /\
  (forall q c, In c [DFrom; DWhere; DOn] -> del_step W q (c [VDict i] k) = del_step W q (c [VDict i'] k)) /\
  mk_Q W [VDict i] k = mk_Q W [VDict i'] k /\ mk_Not W [VDict i] k = mk_Not W [VDict i'] k.
Proof.
  intros W i i' k T P. apply dict_calls; [now apply text_sort_perm|].
  destruct i, i'; try reflexivity; [apply Permutation_nil in P|apply Permutation_sym, Permutation_nil in P]; discriminate.
Qed.
(** Strings or objects beside numbers. *)
Definition dk_of (t : str + Z) : dkey := match t with inl s => DKStr s | inr z => DKInt z end.
Lemma mixed_sort : forall W (items : list (val * val)) keys s z, Forall2 (key_of (w_str W)) (map fst items) keys -> NoDup keys ->
  In (inl s) keys -> In (inr z) keys -> sort_items W items = Err ETypeError.
Proof.
  intros W items keys s z F N Is Iz.
  assert (A : mapM (fun p => dict_key W (fst p)) items = Ok (map dk_of keys)).
  { clear N Is Iz. revert keys F. induction items as [|p items IH]; intros keys F; inversion F as [|? t ? ts T F']; subst; [reflexivity|].
    cbn [mapM map]. rewrite (IH ts F'). replace (dict_key W (fst p)) with (@Ok dkey (dk_of t)); [reflexivity|].
    destruct t as [t|t]; cbn [key_of dk_of] in *; [symmetry; now apply text_key|]. rewrite T. reflexivity. }
  assert (B : existsb is_dkother (map dk_of keys) = false) by (rewrite existsb_map; clear; induction keys as [|[]]; auto).
  assert (C : dk_dup (map dk_of keys) = false).
  { clear -N. induction N as [|k keys N1 N IH]; [reflexivity|]. cbn [map dk_dup]. rewrite IH, orb_false_r, existsb_map.
    destruct (existsb _ keys) eqn:Q; [|reflexivity]. apply existsb_exists in Q. destruct Q as [k' [I T]]. exfalso. apply N1.
    replace k with k'; [exact I|]. destruct k, k'; cbn [dk_of dk_eq] in T; try discriminate T; [apply seqb_eq in T|apply Z.eqb_eq in T]; congruence. }
  assert (X : forallb is_dkstr (map dk_of keys) = false).
  { destruct (forallb is_dkstr (map dk_of keys)) eqn:Q; [|reflexivity]. rewrite forallb_forall in Q. specialize (Q _ (in_map dk_of _ _ Iz)). discriminate Q. }
  assert (Y : forallb is_dkint (map dk_of keys) = false).
  { destruct (forallb is_dkint (map dk_of keys)) eqn:Q; [|reflexivity]. rewrite forallb_forall in Q. specialize (Q _ (in_map dk_of _ _ Is)). discriminate Q. }
  assert (L : exists a b r, items = a :: b :: r).
  { destruct items as [|a [|b r]]; [inversion F; subst; destruct Is| |eauto]. inversion F as [|? t ? ts T F']; subst. inversion F'; subst.
    destruct Is as [->|[]]. destruct Iz as [Iz|[]]. discriminate Iz. }
  destruct L as [a [b [r ->]]]. unfold sort_items. rewrite A. cbn [bind]. rewrite B, C, X, Y. reflexivity.
Qed.
Lemma mixed_refused : forall W (items : list (val * val)) k keys s z, Forall2 (key_of (w_str W)) (map fst items) keys -> NoDup keys ->
  In (inl s) keys -> In (inr z) keys ->
  (forall q c, In c [SColumns; SFrom; SWhere; SHaving; SGroupBy; SOrderBy] -> sel_step W q (c [VDict items] k) = (q, Err ETypeError)) /\
  (forall q, ins_step W q (IValues [VDict items] k) = (q, Err ETypeError)) /\
  (forall q c, In c [USet; UWhere] -> upd_step W q (c [VDict items] k) = (q, Err ETypeError)) /\
  (forall q c, In c [DFrom; DWhere] -> del_step W q (c [VDict items] k) = (q, Err ETypeError)) /\
  mk_Q W [VDict items] k = Err ETypeError /\ mk_Not W [VDict items] k = Err ETypeError.
Proof.
  intros W items k keys s z F N Is Iz. pose proof (mixed_sort W items keys s z F N Is Iz) as S.
  assert (P : forall o, pair_or_alias o -> parse_args W o [VDict items] k = Err ETypeError).
  { intros o [-> | ->]; unfold parse_args; rewrite S; destruct k; reflexivity. }
  assert (NE : is_nilb items = false) by (destruct items; [inversion F; subst; destruct Is|reflexivity]).
  assert (CW : forall c ps, conds_where W c ps [VDict items] k = (ps, Err ETypeError)).
  { intros c ps. unfold conds_where. rewrite (P pair_opts) by now left. destruct k; reflexivity. }
  assert (VS : forall ps, values_set W ps [VDict items] k = (ps, Err ETypeError)).
  { intros ps. unfold values_set. rewrite (P pair_opts) by now left. destruct k; reflexivity. }
  assert (TS : forall ps, tables_set W ps [VDict items] k = (ps, Err ETypeError)).
  { intros ps. unfold tables_set. cbn [filter truthy]. rewrite NE. cbn [negb]. rewrite (P alias_opts) by now right. reflexivity. }
  split; [|split; [|split; [|split; [|split]]]].
  - intros [op cols tabs wh gr ha ord li out fu] c H. cbn [In] in H. destruct H as [<-|[<-|[<-|[<-|[<-|[<-|[]]]]]]]; cbn [sel_step lift1].
    + unfold columns_add. now rewrite (P alias_opts) by now right.
    + cbn [s_tabs]. now rewrite TS.
    + cbn [s_where]. now rewrite CW.
    + cbn [s_having]. now rewrite CW.
    + unfold orders_add. now rewrite (P alias_opts) by now right.
    + unfold orders_add. now rewrite (P alias_opts) by now right.
  - intros [rp ig tabs rows dup cf upd]. cbn [ins_step]. unfold rows_add. now rewrite VS.
  - intros [ig t v w al] c H. cbn [In] in H. destruct H as [<-|[<-|[]]]; cbn [upd_step].
    + now rewrite VS.
    + now rewrite CW.
  - intros [ig t v w al] c H. cbn [In] in H. destruct H as [<-|[<-|[]]]; cbn [del_step].
    + now rewrite TS.
    + now rewrite CW.
  - unfold mk_Q. now rewrite CW.
  - unfold mk_Not. now rewrite CW.
Qed.
Lemma data_incomparable : forall E o a v, is_sql a = true -> is_sql v = false -> (forall s, v <> VStr s) -> (forall i, v <> VOther i) ->
  py_cmp E o a v = Err ETypeError /\ py_cmp E o v a = Err ETypeError.
Proof.
  intros E o a v A V NS _. assert (L : forall o, obj_cmp E o a v = Ok None).
  { assert (X : obj_lt E a v = Ok None) by (destruct v; try discriminate V; try reflexivity; exfalso; eapply NS; reflexivity).
    intros []; cbn [obj_cmp]; [exact X|unfold obj_gt|unfold obj_le|unfold obj_ge]; rewrite X; reflexivity. }
  assert (S1 : subclass a v = false) by (destruct v; try discriminate V; destruct a as [| | | | | | | | | | | | | | | |[]| | | | | | | | | | | | | | ]; reflexivity).
  assert (S2 : subclass v a = false) by (destruct v; try discriminate V; reflexivity).
  unfold py_cmp. rewrite A, V, S1, S2, L, L. split; reflexivity.
Qed.

(** A dictionary is read as the tuples of its entries in the order of their texts. *)
Lemma tuples_alias : forall W out, parse_args W alias_opts (tuples out) [] = Ok (map (fun p => [fst p; snd p]) out).
Proof.
  intros W out.
  assert (L : parse_list alias_opts (tuples out) = Ok (map (fun p => [fst p; snd p]) out)).
  { induction out as [|p out IH]; [reflexivity|]. unfold parse_list in *. cbn [tuples map mapM parse_list_item].
    change (create_batch alias_opts [fst p; snd p]) with (Ok [fst p; snd p]). cbn [bind]. unfold tuples in IH. rewrite IH. reflexivity. }
  destruct out as [|p out]; [reflexivity|]. unfold parse_args. cbn [tuples map]. cbn [tuples map] in L.
  destruct out as [|p' out]; [reflexivity|]. cbn [map] in L |- *. cbn [p_min alias_opts Nat.ltb Nat.leb andb]. rewrite L. cbn [bind map].
  now rewrite app_nil_r.
Qed.
Lemma tuples_pair : forall W out, parse_args W pair_opts [VSeq KList (tuples out)] [] = Ok (map (fun p => [fst p; snd p]) out).
Proof.
  intros W out.
  assert (L : parse_list pair_opts (tuples out) = Ok (map (fun p => [fst p; snd p]) out)).
  { induction out as [|p out IH]; [reflexivity|]. unfold parse_list in *. cbn [tuples map mapM parse_list_item].
    change (create_batch pair_opts [fst p; snd p]) with (Ok [fst p; snd p]). cbn [bind]. unfold tuples in IH. rewrite IH. reflexivity. }
  unfold parse_args. cbn [p_min pair_opts Nat.ltb Nat.leb is_list_or_tuple negb andb p_list]. rewrite L. cbn [bind]. now rewrite app_nil_r.
Qed.
Lemma tuples_truthy : forall out, filter truthy (tuples out) = tuples out.
Proof. induction out as [|p out IH]; [reflexivity|]. cbn [tuples map filter truthy is_nilb negb]. now f_equal. Qed.
Lemma dict_as_tuples : forall W items k, items <> [] -> text_keys (w_str W) items ->
  exists out, in_text_order (w_str W) items out /\
  (forall q c, In c [SColumns; SFrom; SGroupBy; SOrderBy] -> sel_step W q (c [VDict items] k) = sel_step W q (c (tuples out) [])) /\
  (forall q c, In c [SOn; SWhere; SHaving] -> sel_step W q (c [VDict items] k) = sel_step W q (c [VSeq KList (tuples out)] [])) /\
  (forall q, ins_step W q (IValues [VDict items] k) = ins_step W q (IValues [VSeq KList (tuples out)] [])) /\
  (forall q c, In c [USet; UWhere; UOn] -> upd_step W q (c [VDict items] k) = upd_step W q (c [VSeq KList (tuples out)] [])) /\
  (forall q, del_step W q (DFrom [VDict items] k) = del_step W q (DFrom (tuples out) [])) /\
  (forall q c, In c [DWhere; DOn] -> del_step W q (c [VDict items] k) = del_step W q (c [VSeq KList (tuples out)] [])) /\
  mk_Q W [VDict items] k = mk_Q W [VSeq KList (tuples out)] [] /\ mk_Not W [VDict items] k = mk_Not W [VSeq KList (tuples out)] [].
Proof.
  intros W items k NE T.
  destruct (text_parsed W pair_opts items k (or_introl eq_refl) T) as [out [P O]]. exists out. split; [exact O|].
  assert (A : parse_args W alias_opts [VDict items] k = parse_args W alias_opts (tuples out) []).
  { destruct (text_parsed W alias_opts items k (or_intror eq_refl) T) as [out' [P' O']].
    rewrite P', tuples_alias. rewrite <- P'. clear -P P'.
    assert (X : forall o, pair_or_alias o -> parse_args W o [VDict items] k = do x <- (do s <- sort_items W items; Ok (map (fun p => [fst p; snd p]) s)); Ok x).
    { intros o Ho.
      assert (I : forall l, parse_items o l = Ok (map (fun p => [fst p; snd p]) l)).
      { intros l. unfold parse_items. apply mapM_map. intros p _. destruct Ho as [-> | ->]; reflexivity. }
      assert (D : parse_args W o [VDict items] k = do x <- (do s <- sort_items W items; parse_items o s); Ok x).
      { destruct Ho as [-> | ->]; unfold parse_args; destruct k; reflexivity. }
      rewrite D. destruct (sort_items W items); [|reflexivity]. cbn [bind]. now rewrite I. }
    rewrite (X alias_opts (or_intror eq_refl)), <- (X pair_opts (or_introl eq_refl)). exact P. }
  assert (B : parse_args W pair_opts [VDict items] k = parse_args W pair_opts [VSeq KList (tuples out)] []) by (now rewrite P, tuples_pair).
  assert (CW : forall c ps, conds_where W c ps [VDict items] k = conds_where W c ps [VSeq KList (tuples out)] []).
  { intros c ps. unfold conds_where. cbn [is_sql is_nilb negb forallb is_conds andb]. rewrite B. now destruct k. }
  assert (VV : forall ps, values_set W ps [VDict items] k = values_set W ps [VSeq KList (tuples out)] []).
  { intros ps. unfold values_set. cbn [is_sql]. rewrite B. now destruct k. }
  assert (TT : forall ps, tables_set W ps [VDict items] k = tables_set W ps (tuples out) []).
  { intros ps. unfold tables_set. rewrite tuples_truthy, <- A. destruct items; [now contradiction NE|reflexivity]. }
  assert (ON : forall ts, tables_on W ts [VDict items] k = tables_on W ts [VSeq KList (tuples out)] []).
  { intros ts. unfold tables_on, on_last_table. erewrite upd_last_ext; [reflexivity|].
    intros t. unfold table_on. erewrite upd_last_ext; [reflexivity|]. intros j. cbn beta. now rewrite CW. }
  split; [|split; [|split; [|split; [|split; [|split; [|split]]]]]].
  - intros q c H. cbn [In] in H. destruct H as [<-|[<-|[<-|[<-|[]]]]]; cbn [sel_step].
    + unfold columns_add. now rewrite A.
    + now rewrite TT.
    + unfold orders_add. now rewrite A.
    + unfold orders_add. now rewrite A.
  - intros q c H. cbn [In] in H. destruct H as [<-|[<-|[<-|[]]]]; cbn [sel_step]; [now rewrite ON|now rewrite CW|now rewrite CW].
  - intros [rp ig tabs rows dup cf upd]. cbn [ins_step]. unfold rows_add. now rewrite VV.
  - intros [ig t v w al] c H. cbn [In] in H. destruct H as [<-|[<-|[<-|[]]]]; cbn [upd_step]; [now rewrite VV|now rewrite CW|now rewrite ON].
  - intros [ig t v w al]. cbn [del_step]. now rewrite TT.
  - intros [ig t v w al] c H. cbn [In] in H. destruct H as [<-|[<-|[]]]; cbn [del_step]; [now rewrite CW|now rewrite ON].
  - unfold mk_Q. now rewrite CW.
  - unfold mk_Not. now rewrite CW.
Qed.
