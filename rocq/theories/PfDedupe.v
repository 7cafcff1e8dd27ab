(** Lemmas about conditions being kept or dropped as duplicates: C18, C19. *)
From Coq Require Import Lia.
From Verif Require Import Base BaseFacts NumFmt Value Backend Eq Render RenderFacts ParseArgs Build Queries History
  SpecArgs PfLiterals PfArgs PfHistories.
Open Scope N_scope.

Definition add_cond (W : world) (k : condk) := fun (s : list val) (it : list val) =>
  let (c, v) := nth2 it in commit s (do x <- mk_condition k c v; append_unique (w_eq W) s x).
Lemma add_cond_ok : forall W k s it s', add_cond W k s it = (s', Ok tt) ->
  exists x p, mk_condition k (fst (nth2 it)) (snd (nth2 it)) = Ok x /\ In p s' /\ (p = x \/ w_eq W p x = Ok true).
Proof.
  intros W k s it s' H. unfold add_cond in H. destruct (nth2 it) as [c v]. cbn [fst snd].
  destruct (mk_condition k c v) as [x|]; [|discriminate]. cbn [bind] in H. unfold append_unique in H.
  destruct (anyM (fun p => w_eq W p x) s) as [b|] eqn:A; [|discriminate]. cbn [bind commit] in H. injection H as <-.
  exists x. destruct b.
  - assert (Q : forall l, anyM (fun p => w_eq W p x) l = Ok true -> exists p, In p l /\ w_eq W p x = Ok true).
    { induction l as [|y l IH]; simpl; [discriminate|]. destruct (w_eq W y x) as [[]|] eqn:Y; simpl; [eauto| |discriminate].
      intros HA. destruct (IH HA) as [p [I P]]. eauto. }
    destruct (Q s A) as [p [I P]]. exists p. auto.
  - exists x. split; [reflexivity|]. split; [apply in_or_app; right; now left|now left].
Qed.
Lemma add_cond_prefix : forall W k s it, prefix s (fst (add_cond W k s it)).
Proof.
  intros W k s it. unfold add_cond. destruct (nth2 it) as [c v].
  apply (add_prefix _ (val * val) (w_eq W) (fun p => mk_condition k (fst p) (snd p)) s (c, v)).
Qed.
Lemma prefix_in : forall A (a b : list A) x, prefix a b -> In x a -> In x b.
Proof. intros A a b x [c ->] H. apply in_or_app. now left. Qed.
Lemma foldE_ok_all : forall S A (f : S -> A -> S * outcome) (R : S -> S -> Prop) (P : S -> A -> Prop),
  (forall s, R s s) -> (forall a b c, R a b -> R b c -> R a c) ->
  (forall s x, R s (fst (f s x))) -> (forall s s' x, P s x -> R s s' -> P s' x) ->
  (forall s x s', f s x = (s', Ok tt) -> P s' x) ->
  forall l s s', foldE f s l = (s', Ok tt) -> R s s' /\ forall x, In x l -> P s' x.
Proof.
  intros S A f R P Rr Rt Rf PR Pf l. induction l as [|x l IH]; intros s s' H; simpl in H.
  - injection H as <-. split; [apply Rr|intros x []].
  - destruct (f s x) as [s1 [[]|]] eqn:F; [|discriminate]. destruct (IH _ _ H) as [R1 P1].
    pose proof (Rf s x) as Q. rewrite F in Q. cbn [fst] in Q. split; [eapply Rt; eauto|].
    intros y [<-|I]; [eapply PR; [eapply Pf; eauto|exact R1]|auto].
Qed.
Definition represented (W : world) (x : val) (ps : list val) : Prop :=
  exists p, In p ps /\ (p = x \/ w_eq W p x = Ok true).
Lemma add_items : forall W k items s s', foldE (add_cond W k) s items = (s', Ok tt) ->
  forall it, In it items -> exists x, mk_condition k (fst (nth2 it)) (snd (nth2 it)) = Ok x /\ represented W x s'.
Proof.
  intros W k items s s' H.
  apply (foldE_ok_all _ _ (add_cond W k) (fun a b => prefix a b)
    (fun s it => exists x, mk_condition k (fst (nth2 it)) (snd (nth2 it)) = Ok x /\ represented W x s)) in H.
  - apply H.
  - apply prefix_refl.
  - apply prefix_trans.
  - apply add_cond_prefix.
  - intros a b it [x [M [p [I P]]]] R. exists x. split; [exact M|]. exists p. split; [eapply prefix_in; eauto|exact P].
  - intros a it b F. destruct (add_cond_ok _ _ _ _ _ F) as [x [p [M [I P]]]]. exists x. split; [exact M|]. now exists p.
Qed.
Lemma add_objects : forall W args s s', foldE (fun s x => commit s (append_unique (w_eq W) s x)) s args = (s', Ok tt) ->
  forall a, In a args -> represented W a s'.
Proof.
  intros W args s s' H.
  apply (foldE_ok_all _ _ (fun s x => commit s (append_unique (w_eq W) s x)) (fun a b => prefix a b) (fun s x => represented W x s)) in H.
  - apply H.
  - apply prefix_refl.
  - apply prefix_trans.
  - intros a x. apply (add_prefix _ val (w_eq W) (fun y => Ok y) a x).
  - intros a b x [p [I P]] R. exists p. split; [eapply prefix_in; eauto|exact P].
  - intros a x b F. unfold append_unique in F. destruct (anyM (fun p => w_eq W p x) a) as [c|] eqn:A; [|discriminate].
    cbn [bind commit] in F. injection F as <-. destruct c.
    + assert (Q : forall l, anyM (fun p => w_eq W p x) l = Ok true -> exists p, In p l /\ w_eq W p x = Ok true).
      { induction l as [|y l IH]; simpl; [discriminate|]. destruct (w_eq W y x) as [[]|] eqn:Y; simpl; [eauto| |discriminate].
        intros HA. destruct (IH HA) as [p [I P]]. eauto. }
      destruct (Q a A) as [p [I P]]. exists p. auto.
    + exists x. split; [apply in_or_app; right; now left|now left].
Qed.

(** C18: pairs, lists of pairs, dicts and keywords. *)
Lemma where_keeps_pairs : forall W k ps args kwds ps' asked, keys_ok args kwds ->
  (args = [] \/ forallb is_conds args = false) ->
  pair_args args kwds asked -> conds_where W k ps args kwds = (ps', Ok tt) ->
  forall c v, In (c, v) asked -> exists x, mk_condition k c v = Ok x /\ represented W x ps'.
Proof.
  intros W k ps args kwds ps' asked K NC PA H c v I.
  assert (NS : ~ (exists a, args = [a] /\ is_sql a = true)).
  { intros [a [-> S]]. inversion PA as [|? ? ? ? ? G|? ? ? ? G|? ? ? ? L]; subst; [destruct G as [G|G]; rewrite G in S; discriminate S|discriminate S|now apply L]. }
  destruct (pair_contract_iff W args kwds K) as [C _]. apply C in PA.
  assert (F : foldE (add_cond W k) ps (batches asked) = (ps', Ok tt)).
  { unfold conds_where in H. rewrite PA in H. unfold batches. destruct args as [|a [|b r]].
    - destruct kwds; exact H.
    - destruct kwds.
      + destruct (is_sql a) eqn:Q; [exfalso; apply NS; eauto|exact H].
      + destruct NC as [NC|NC]; [discriminate|]. rewrite NC, andb_false_r in H. exact H.
    - destruct NC as [NC|NC]; [discriminate|]. rewrite NC, andb_false_r in H. destruct kwds; exact H. }
  pose proof (add_items _ _ _ _ _ F [c; v]) as Q. cbn [nth2 fst snd] in Q. apply Q.
  unfold batches. change [c; v] with ((fun p => [fst p; snd p]) (c, v)). now apply in_map.
Qed.
Lemma where_keeps_objects : forall W k ps args kwds ps', args <> [] ->
  (forallb is_conds args = true \/ exists a, args = [a] /\ is_sql a = true) ->
  conds_where W k ps args kwds = (ps', Ok tt) -> forall a, In a args -> represented W a ps'.
Proof.
  intros W k ps args kwds ps' N S H a I. unfold conds_where in H. destruct args as [|x [|y r]]; [congruence| |].
  - assert (Q : is_sql x = true).
    { destruct S as [S|[z [Z S]]]; [|congruence]. simpl in S. destruct x; try discriminate; reflexivity. }
    destruct kwds as [|y kwds].
    + rewrite Q in H. injection H as <-. destruct I as [<-|[]]. exists x. split; [apply in_or_app; right; now left|now left].
    + cbn [is_nilb negb andb] in H. destruct (forallb is_conds [x]) eqn:C; [eapply add_objects; eauto|exfalso].
      cbn [forallb] in C. destruct x; try discriminate Q; try discriminate C; discriminate H.
  - destruct S as [S|[z [Z S]]]; [|discriminate]. rewrite S in H. cbn [is_nilb negb andb] in H. destruct kwds; eapply add_objects; eauto.
Qed.
(** Keywords beside a dict or beside Q objects are not read. *)
Lemma where_loses : forall W k ps args kwds kwds',
  (exists items, args = [VDict items]) \/ (args <> [] /\ forallb is_conds args = true /\ kwds <> [] /\ kwds' <> []) ->
  conds_where W k ps args kwds = conds_where W k ps args kwds'.
Proof.
  intros W k ps args kwds kwds' [[items ->]|[N [C [K K']]]].
  - unfold conds_where. destruct kwds, kwds'; reflexivity.
  - unfold conds_where. rewrite C. destruct args as [|x [|y r]]; [congruence| |]; destruct kwds as [|k1 kwds], kwds' as [|k2 kwds']; try congruence; reflexivity.
Qed.
Lemma conds_parts : forall E ps t, text E (VConds ps) = Ok t ->
  exists ts, Forall2 (fun p u => text E p = Ok u) ps ts /\ t = sjoin (lit " AND ") ts.
Proof.
  intros E ps t H. rewrite text_unfold in H. cbn [str_body] in H. unfold conds_str in H.
  destruct (mapM (text E) ps) as [ts|] eqn:M; [|discriminate]. cbn [bind] in H. injection H as <-.
  exists ts. split; [now apply mapM_Forall2|]. destruct ts; reflexivity.
Qed.

(** ** C19 *)
Lemma date_eqb_eq : forall a b, date_eqb a b = true -> a = b.
Proof.
  intros [y m d] [y' m' d'] H. unfold date_eqb in H. cbn in H. apply andb_prop in H. destruct H as [H H3].
  apply andb_prop in H. destruct H as [H1 H2]. apply N.eqb_eq in H1, H2, H3. congruence.
Qed.
Lemma time_eqb_eq : forall a b, time_eqb a b = true -> a = b.
Proof.
  intros [h m s u] [h' m' s' u'] H. unfold time_eqb in H. cbn in H. repeat (apply andb_prop in H; destruct H as [H ?]).
  repeat match goal with H : (_ =? _) = true |- _ => apply N.eqb_eq in H end. congruence.
Qed.
Lemma rand_true : forall x y, rand x y = Ok true <-> x = Ok true /\ y = Ok true.
Proof. intros [[]|] y; simpl; split; try tauto; try discriminate; intros [H1 H2]; discriminate. Qed.
Lemma plain_eq : forall r n a b, (depth a <= n)%nat -> plain a -> plain b -> pyeq r a b = Ok true -> a = b.
Proof.
  intros r n. induction n as [|n IH]; intros a b D Pa Pb H; [pose proof (depth_pos a); lia|].
  destruct Pa; cbn [pyeq textual_eq] in H.
  - destruct Pb; try discriminate. reflexivity.
  - destruct Pb; try discriminate. cbn [as_num] in H. injection H as H. unfold num_eq in H.
    apply andb_prop in H. destruct H as [H1 H2]. apply N.eqb_eq in H1. apply orb_prop in H2. f_equal.
    destruct H2 as [H2|H2]; [apply N.eqb_eq in H2; lia|]. apply Bool.eqb_prop in H2.
    destruct (n0 <? 0)%Z eqn:A, (n1 <? 0)%Z eqn:B; try discriminate; lia.
  - destruct Pb; try discriminate. injection H as H. apply seqb_eq in H. congruence.
  - destruct Pb; try discriminate. injection H as H. apply seqb_eq in H. congruence.
  - destruct Pb; try discriminate. injection H as H. apply date_eqb_eq in H. congruence.
  - destruct Pb; try discriminate. injection H as H. apply andb_prop in H. destruct H as [H1 H2].
    apply date_eqb_eq in H1. apply time_eqb_eq in H2. congruence.
  - destruct Pb as [| | | | | |k' l' Hk' F']; try discriminate. destruct (seqk_eqb k k') eqn:Q.
    2:{ simpl in H0, Hk'. destruct k; cbn [is_setk andb] in H; try discriminate; destruct H0 as [?|[?|[?|[]]]]; discriminate. }
    assert (k = k') by (destruct k, k'; try discriminate; reflexivity). subst k'. f_equal.
    unfold list_eq in H. destruct (Nat.eqb _ _) eqn:L; [|discriminate]. apply Nat.eqb_eq in L.
    cbn [depth] in D. assert (D' : (maxf depth l <= n)%nat) by lia. clear D Q H0 Hk'. revert l' F' L H.
    induction l as [|x l IHl]; intros [|y l'] F' L H; simpl in L; try discriminate; [reflexivity|].
    inversion H1; subst. inversion F'; subst. simpl in H, D'. apply rand_true in H. destruct H as [Hx Hl].
    f_equal; [apply IH; auto; lia|apply IHl; auto; lia].
Qed.
Definition plain_cond (p : val) : Prop := exists c rk v, p = VCond KWhere (VStr c) rk v /\ plain v.
Lemma plain_mk : forall c v x, (plain v \/ exists rk w, v = VRel rk w /\ plain w) ->
  mk_condition KWhere (VStr c) v = Ok x -> plain_cond x.
Proof.
  intros c v x P H. unfold mk_condition in H. change (check_type [TStr] (VStr c)) with true in H. cbn [negb] in H.
  destruct (negb (check_type cond_value_types v)); [discriminate|].
  destruct P as [P|[rk [w [-> Pw]]]].
  2:{ cbn [bind] in H. injection H as <-. exists c, rk, w. auto. }
  assert (Q : match v with VRel _ _ => Ok v | _ => mk_rel (default_rel v) v end = mk_rel (default_rel v) v) by (destruct P; reflexivity).
  rewrite Q in H. unfold mk_rel in H.
  set (v' := match default_rel v with RIn | RNotIn => match py_list v with Some l => VSeq KList l | None => v end | _ => v end) in H.
  assert (P' : plain v').
  { unfold v'. destruct P as [| | | | | |k l Hk F]; try (cbn; constructor; fail).
    destruct (default_rel (VSeq k l)); try (constructor; assumption); cbn [py_list]; constructor; auto; now left. }
  clearbody v'. destruct (check_type _ v'); [|discriminate]. cbn [bind] in H. injection H as <-. exists c, (default_rel v), v'. auto.
Qed.
Lemma plain_cond_eq : forall r p x, plain_cond p -> plain_cond x -> pyeq r p x = Ok true -> p = x.
Proof.
  intros r p x [c [rk [v [-> Pv]]]] [c' [rk' [v' [-> Pv']]]] H. cbn [pyeq textual_eq] in H.
  apply rand_true in H. destruct H as [H1 H]. apply rand_true in H. destruct H as [H2 H3].
  injection H1 as H1. apply seqb_eq in H1. injection H3 as H3. apply (plain_eq r _ _ _ (le_n _)) in H2; auto. subst.
  destruct rk, rk'; try discriminate; reflexivity.
Qed.
Lemma where_one : forall E ps c v, conds_where (pure_world E) KWhere ps [VStr c; v] [] =
  commit ps (do x <- mk_condition KWhere (VStr c) v; append_unique (py_eq E) ps x).
Proof.
  intros E ps c v. unfold conds_where. cbn [is_nilb negb andb forallb is_conds].
  change (parse_args (pure_world E) pair_opts [VStr c; v] []) with (Ok [[VStr c; v]]). cbn [foldE nth2 pure_world w_eq].
  destruct (commit ps (do x <- mk_condition KWhere (VStr c) v; append_unique (py_eq E) ps x)) as [s [[]|e]]; reflexivity.
Qed.
Lemma where_calls_plain : forall E l ps, Forall plain_call l -> Forall plain_cond ps -> Forall plain_cond (where_calls E ps l).
Proof.
  intros E l. induction l as [|o l IH]; intros ps F P; [exact P|]. inversion F as [|? ? [c [v [-> Hv]]] F2]; subst.
  cbn [where_calls fold_left fst snd]. apply IH; [exact F2|]. rewrite where_one.
  destruct (mk_condition KWhere (VStr c) v) as [x|] eqn:M; [|exact P]. cbn [bind].
  destruct (append_unique (py_eq E) ps x) as [ps'|] eqn:A; [|exact P]. cbn [commit fst].
  apply append_unique_prefix in A. destruct A as [->| ->]; [exact P|]. apply Forall_app. split; [exact P|].
  constructor; [eapply plain_mk; eauto|constructor].
Qed.
Lemma dedupe_plain : forall E l c v, Forall plain_call l -> plain_call (VStr c, v) ->
  let ps := where_calls E [] l in
  conds_where (pure_world E) KWhere ps [VStr c; v] [] = (ps, Ok tt) ->
  exists p, In p ps /\ conds_where (pure_world E) KWhere [] [VStr c; v] [] = ([p], Ok tt).
Proof.
  intros E l c v Fl Pc ps H. assert (P : Forall plain_cond ps) by (apply where_calls_plain; [exact Fl|constructor]).
  destruct Pc as [c' [v' [Q Pv]]]. injection Q as <- <-.
  rewrite where_one in H. destruct (mk_condition KWhere (VStr c) v) as [x|] eqn:M; [|discriminate]. cbn [bind] in H.
  assert (Px : plain_cond x) by (eapply plain_mk; eauto).
  unfold append_unique in H. destruct (anyM (fun p => py_eq E p x) ps) as [b|] eqn:A; [|discriminate]. cbn [bind commit] in H.
  exists x. split; [|rewrite where_one, M; reflexivity].
  destruct b.
  - assert (K : forall m, Forall plain_cond m -> anyM (fun p => py_eq E p x) m = Ok true -> In x m).
    { induction m as [|y m IH]; intros Fm; simpl; [discriminate|]. inversion Fm; subst. unfold py_eq at 1.
      destruct (pyeq (text E) y x) as [[]|] eqn:Y; simpl; [|auto|discriminate].
      intros _. left. eapply plain_cond_eq; eauto. }
    now apply K.
  - exfalso. injection H as H. assert (L : List.length (ps ++ [x]) = List.length ps) by now rewrite H.
    rewrite app_length in L. simpl in L. lia.
Qed.
