(** Lemmas: a method puts into objects only what it was given or can reach, and new objects. *)
From Coq Require Import Lia.
From Verif Require Import Base NumFmt Value Backend Eq Render ParseArgs Build Queries Heap SpecHeap PfHeap PfHeapAlike PfHeapFrame PfHeapView HeapBuild HeapShow SpecShare PfShare PfOwn PfParts PfNewItems PfMethods.
Open Scope nat_scope.
Local Arguments view : simpl never.

Section Trace.
  (** A set of objects with everything created from now on, and objects that may be read. *)
  Variables (S T : addr -> Prop) (n : nat).
  Hypothesis later : forall p, n <= p -> S p.
  Hypothesis within : forall p, S p -> T p.
  Definition inS (r : ref) : Prop := match r with RAtom _ => True | RPtr p => S p end.
  Definition inT (r : ref) : Prop := match r with RAtom _ => True | RPtr p => T p end.
  Lemma inST : forall r, inS r -> inT r.
  Proof. intros [a|p]; cbn; auto. Qed.
  Definition fenced (h : heap) : Prop :=
    n <= List.length h /\ (forall a r, T a -> refers h a r -> inS r) /\ forall p, n <= p -> kind_of h p <> Some OGen.
  Definition tame {A} (P : A -> Prop) (m : hm A) : Prop :=
    forall h h' o, fenced h -> m h = (h', o) -> fenced h' /\ forall x, o = Ok x -> P x.

  Lemma tame_ret : forall A (P : A -> Prop) x, P x -> tame P (hret x).
  Proof. intros A P x HP h h' o F R. injection R as <- <-. split; [exact F|]. intros y E. injection E as <-. exact HP. Qed.
  Lemma tame_bind : forall A B (P : A -> Prop) (Q : B -> Prop) m f, tame P m -> (forall x, P x -> tame Q (f x)) -> tame Q (hbind m f).
  Proof.
    intros A B P Q m f M K h h' o F R. unfold hbind in R. destruct (m h) as [h1 [x|e]] eqn:E; destruct (M _ _ _ F E) as [F1 P1].
    - exact (K x (P1 _ eq_refl) _ _ _ F1 R).
    - injection R as <- <-. split; [exact F1|]. intros x X. discriminate.
  Qed.
  Lemma tame_look : forall A (P : A -> Prop) f, (forall h x, fenced h -> f h = Ok x -> P x) -> tame P (look f).
  Proof. intros A P f H h h' o F R. injection R as <- <-. split; [exact F|]. intros x E. exact (H _ _ F E). Qed.
  Lemma tame_any : forall A (f : heap -> res A), tame (fun _ => True) (look f).
  Proof. intros A f. apply tame_look. auto. Qed.
  Lemma tame_more : forall A (P Q : A -> Prop) m, tame P m -> (forall x, P x -> Q x) -> tame Q m.
  Proof. intros A P Q m M K h h' o F R. destruct (M _ _ _ F R) as [F1 P1]. split; auto. Qed.
  Lemma tame_fail : forall A (P : A -> Prop) e, tame P (look (fun _ => Err e)).
  Proof. intros A P e. apply tame_look. intros h x _ X. discriminate. Qed.
  Lemma tame_check : forall b, tame (fun _ => True) (check b).
  Proof. intros b h h' o F R. injection R as <- <-. auto. Qed.
  Definition inl (l : list (label * ref)) : Prop := Forall (fun x => inS (snd x)) l.
  Lemma tame_alloc : forall k l, k <> OGen -> inl l -> tame S (alloc k l).
  Proof.
    intros k l NG IL h h' o (L & F & NN) R. injection R as <- <-. split; [split; [|split]|].
    - rewrite app_length. lia.
    - intros a r SA RF. destruct (refers_app _ _ _ _ _ RF) as [(-> & b & I)|RF']; [|eauto]. unfold inl in IL. rewrite Forall_forall in IL. exact (IL _ I).
    - intros p LP. destruct (Nat.lt_trichotomy p (List.length h)) as [X|[->|X]].
      + unfold kind_of. rewrite get_old by exact X. exact (NN p LP).
      + unfold kind_of. rewrite get_new. cbn. congruence.
      + unfold kind_of. destruct (get _ p) eqn:G; [|discriminate]. apply get_lt in G. rewrite app_length in G. cbn in G. lia.
    - intros x E. injection E as <-. apply later. lia.
  Qed.
  Lemma tame_change : forall p f, (forall l, inl l -> inl (f l)) -> tame (fun _ => True) (change p f).
  Proof.
    intros [a|p] f HF h h' o (L & F & NN) R; cbn in R; [injection R as <- <-; split; [split; auto|auto]|].
    destruct (get h p) as [[k l]|] eqn:G; [|injection R as <- <-; split; [split; auto|auto]]. injection R as <- <-. split; [split; [|split]|auto].
    - rewrite put_length. exact L.
    - intros a r SA RF. destruct (refers_put _ _ _ _ _ _ RF) as [(-> & b & I)|(_ & RF')]; [|eauto].
      assert (IL : inl (f l)) by (apply HF; apply Forall_forall; intros [c x] J; apply (F p); [exact SA|exists k, l, c; auto]).
      unfold inl in IL. rewrite Forall_forall in IL. exact (IL _ I).
    - intros x LX. erewrite kind_put by exact G. exact (NN x LX).
  Qed.
  Lemma set_attr_in : forall k r l, inS r -> inl l -> inl (set_attr k r l).
  Proof.
    intros k r l HR IL. induction IL as [|[a x] l HX IL IH]; cbn; [constructor; [exact HR|constructor]|].
    destruct a; try (constructor; assumption). destruct (String.eqb _ _); constructor; assumption.
  Qed.
  Lemma set_key_in : forall k r l, inS r -> inl l -> inl (set_key k r l).
  Proof.
    intros k r l HR. assert (X : forall m l, List.length l <= m -> inl l -> inl (set_key k r l)); [|apply (X (List.length l)); lia].
    induction m as [|m IH]; intros l0 L IL; destruct l0 as [|[a x] l0]; try (cbn in L; lia); try exact IL.
    destruct a; try exact IL. destruct l0 as [|[b y] l0]; [exact IL|]. destruct b; try exact IL. cbn [set_key]. inversion IL as [|? ? I1 I2]; subst. inversion I2 as [|? ? I3 I4]; subst.
    assert (R : inl (set_key k r l0)) by (apply IH; [cbn in L; lia|exact I4]).
    destruct (d_str x) as [s|e]; [destruct (seqb s (lit k))|]; constructor; auto; constructor; auto.
  Qed.
  Lemma tame_assign : forall p k r, inS r -> tame (fun _ => True) (assign p k r).
  Proof. intros p k r H. apply tame_change. intros l. apply set_attr_in. exact H. Qed.
  Lemma tame_store : forall p k r, inS r -> tame (fun _ => True) (store p k r).
  Proof. intros p k r H. apply tame_change. intros l. apply set_key_in. exact H. Qed.
  Lemma tame_push : forall p r, inS r -> tame (fun _ => True) (push p r).
  Proof. intros p r H. apply tame_change. intros l IL. apply Forall_app. split; [exact IL|]. constructor; [exact H|constructor]. Qed.

  (** Reading. *)
  Lemma in_elements : forall h, fenced h -> elements inS h.
  Proof. intros h (_ & F & _). split; [intros a; exact Logic.I|]. intros p k l a r SP G _ I. apply (F p); [apply within; exact SP|exists k, l, a; auto]. Qed.
  Lemma in_attr : forall h k r x, fenced h -> inT r -> attr h k r = Ok x -> inS x.
  Proof. intros h k [a|p] x (_ & F & _) SR E; [discriminate|]. apply attr_refers in E. exact (F _ _ SR E). Qed.
  Lemma in_refs : forall h k r l, fenced h -> inS r -> refs_at h k r = Ok l -> inl l.
  Proof.
    intros h k [a|p] l (_ & F & _) SR E; [discriminate|]. unfold refs_at, obj_at in E. destruct (get h p) as [[k' l']|] eqn:G; [|discriminate]. cbn in E.
    destruct (kind_eqb k k'); [|discriminate]. injection E as <-. apply Forall_forall. intros [c x] J. apply (F p); [apply within; exact SR|exists k', l', c; auto].
  Qed.
  Lemma in_items : forall l, inl l -> Forall inS (items_of l).
  Proof. intros l IL. apply Forall_forall. intros r I. apply items_in in I. destruct I as [a I]. unfold inl in IL. rewrite Forall_forall in IL. exact (IL _ I). Qed.
  Lemma in_parts : forall h r l, fenced h -> inS r -> parts_of h r = Ok l -> Forall inS l.
  Proof.
    intros h r l F SR E. unfold parts_of in E. destruct (attr h "_parts" r) as [p|] eqn:A; [|discriminate]. cbn [bind] in E.
    destruct (refs_at h _ p) as [x|] eqn:B; [|discriminate]. injection E as <-. apply in_items. eapply in_refs; [exact F|eapply in_attr; [exact F|apply inST; exact SR|exact A]|exact B].
  Qed.
  Lemma in_lookup : forall h k r x, fenced h -> inS r -> lookup h k r = Ok x -> inS x.
  Proof.
    intros h k r x F SR E. unfold lookup in E. destruct (refs_at h ODict r) as [l|] eqn:B; [|discriminate]. cbn [bind] in E. pose proof (in_refs _ _ _ _ F SR B) as IL. unfold inl in IL. rewrite Forall_forall in IL.
    assert (X : exists y, In (y, x) (pairs_of l)).
    { clear - E. induction (pairs_of l) as [|[a b] m IH]; cbn in E; [discriminate|]. destruct (d_str a) as [s|]; cbn in E.
      - destruct (seqb s (lit k)); [injection E as <-; eexists; left; reflexivity|]. destruct (IH E) as [y Y]. exists y. right. exact Y.
      - destruct (IH E) as [y Y]. exists y. right. exact Y. }
    destruct X as [y X]. apply pairs_in in X. destruct X as [_ [c X]]. exact (IL _ X).
  Qed.
  Lemma in_last : forall l r, Forall inS l -> last_ref l = Some r -> inS r.
  Proof. intros l r F. induction F as [|x l HX F IH]; cbn; [discriminate|]. destruct l; [intros E; injection E as <-; exact HX|exact IH]. Qed.
  Lemma in_nth2 : forall it, Forall inS it -> inS (fst (r_nth2 it)) /\ inS (snd (r_nth2 it)).
  Proof. intros it F. unfold r_nth2. destruct F as [|a l A F]; [split; exact Logic.I|]. destruct F as [|b l B F]; [split; exact Logic.I|]. destruct F; [split; assumption|split; exact Logic.I]. Qed.

  Lemma tame_attr : forall k r, inT r -> tame inS (look (fun h => attr h k r)).
  Proof. intros k r SR. apply tame_look. intros h x F. apply in_attr; assumption. Qed.
  Lemma tame_append : forall self x, inS x -> tame (fun _ => True) (append_part self x).
  Proof. intros self x SX. eapply tame_bind; [apply tame_any|]. intros p _. apply tame_push. exact SX. Qed.
  Lemma tame_unique : forall A (see : heap -> ref -> res A) eq self x, inS x -> tame (fun _ => True) (append_unique_part see eq self x).
  Proof. intros A see eq self x SX. eapply tame_bind; [apply tame_any|]. intros [] _; [apply tame_ret; exact Logic.I|apply tame_append; exact SX]. Qed.
  Lemma tame_each : forall A (Q : A -> Prop) f l, Forall Q l -> (forall x, Q x -> tame (fun _ => True) (f x)) -> tame (fun _ => True) (for_each f l).
  Proof.
    intros A Q f l FL H. induction FL as [|x l HX FL IH]; cbn [for_each]; [apply tame_ret; exact Logic.I|]. eapply tame_bind; [apply H; exact HX|]. intros _ _. exact IH.
  Qed.
  Lemma tame_items : forall W o args kwds f, Forall inS args -> Forall (fun x => inS (snd x)) kwds ->
    (forall it, Forall inS it -> tame (fun _ => True) (f it)) ->
    tame (fun _ => True) (doh items <- look (fun h => r_parse_args W h o args kwds); for_each f items).
  Proof.
    intros W o args kwds f FA FK H. eapply tame_bind; [eapply (tame_look _ (Forall (Forall inS)))|].
    - intros h its F E. eapply el_parse; [apply in_elements; exact F|exact FA|exact FK|exact E].
    - intros its FI. eapply tame_each; [exact FI|exact H].
  Qed.
  Lemma tame_new_parts : forall c sep more, inl more -> tame S (new_parts c sep more).
  Proof. intros c sep more M. eapply tame_bind; [apply tame_alloc; [discriminate|]; repeat constructor|]. intros p SP. apply tame_alloc; [discriminate|]. constructor; [exact SP|exact M]. Qed.
  Lemma tame_list_of : forall r, inS r -> tame (fun o => match o with Some l => Forall inS l | None => True end) (list_of r).
  Proof.
    intros r SR h h' o F R. pose proof (in_elements _ F) as EL. destruct o as [[l|]|e].
    - pose proof (el_list_of _ _ EL _ _ _ SR R) as FL. split; [|intros x E; injection E as <-; exact FL].
      destruct r as [[v|s|s]|p]; cbn in R; try (injection R as <- _; exact F). destruct (get h p) as [[k ll]|] eqn:G; [|injection R as <- _; exact F].
      destruct k; try (injection R as <- _; exact F). injection R as <- _. destruct F as (L & F & NN). split; [rewrite put_length; exact L|]. split; [|intros y LY; erewrite kind_put by exact G; exact (NN y LY)]. intros a x SA RF.
      destruct (refers_put _ _ _ _ _ _ RF) as [(-> & b & [])|(_ & RF')]. eauto.
    - split; [|intros x E; injection E as <-; exact Logic.I]. destruct r as [[v|s|s]|p]; cbn in R; try (inversion R; subst; exact F). destruct (get h p) as [[k ll]|] eqn:G; [|inversion R; subst; exact F].
      destruct k; inversion R; subst; exact F.
    - destruct r as [[v|s|s]|p]; cbn in R; try discriminate. destruct (get h p) as [[k ll]|] eqn:G; [|discriminate]. destruct k; discriminate.
  Qed.
  Ltac looks := eapply tame_bind; [apply tame_any|intros ? _].
  Ltac checks := eapply tame_bind; [apply tame_check|intros _ _].
  Ltac unit_ := intros; exact Logic.I.
  Lemma tame_new_rel : forall k r, inS r -> tame S (new_rel k r).
  Proof.
    intros k r SR. eapply (tame_bind _ _ inS).
    - assert (X : tame inS (doh o <- list_of r; match o with Some l => doh p <- alloc OList (map (fun x => (LItem, x)) l); hret (RPtr p) | None => hret r end)).
      { eapply tame_bind; [apply tame_list_of; exact SR|]. intros [l|] FL; [|apply tame_ret; exact SR].
        eapply tame_bind; [apply tame_alloc; [discriminate|]; apply Forall_forall; intros x I; apply in_map_iff in I; destruct I as (y & <- & I); rewrite Forall_forall in FL; exact (FL _ I)|].
        intros p SP. apply tame_ret. exact SP. }
      destruct k; try exact X; apply tame_ret; exact SR.
    - intros r' SR'. looks. checks. apply tame_alloc; [discriminate|]. constructor; [exact SR'|constructor].
  Qed.
  Lemma tame_new_condition : forall k c v, inS c -> inS v -> tame S (new_condition k c v).
  Proof.
    intros k c v SC SV. looks. checks. looks. checks. eapply (tame_bind _ _ inS).
    - assert (Y : tame inS (doh p <- new_rel (default_rel x0) v; hret (RPtr p))) by (eapply tame_bind; [apply tame_new_rel; exact SV|intros p SP; apply tame_ret; exact SP]).
      destruct x0; try exact Y. apply tame_ret. exact SV.
    - intros rel SL. apply tame_alloc; [discriminate|]. constructor; [exact SC|]. constructor; [exact SL|constructor].
  Qed.
  Definition ink (args : list ref) (kwds : rkwargs) : Prop := Forall inS args /\ Forall (fun x => inS (snd x)) kwds.
  Lemma ink_app : forall a (k : rkwargs), Forall inS (a ++ map snd k) -> ink a k.
  Proof. intros a k F. apply Forall_app in F. destruct F as [A B]. split; [exact A|]. rewrite Forall_forall in *. intros x I. apply B. apply in_map. exact I. Qed.
  Lemma tame_where : forall W k self args kwds, ink args kwds -> tame (fun _ => True) (h_where W k self args kwds).
  Proof.
    intros W k self args kwds [FA FK]. unfold h_where. looks. rename x into vs.
    assert (N : tame (fun _ => True) (doh items <- look (fun h => r_parse_args W h pair_opts args kwds);
      for_each (fun it => let (c, x) := r_nth2 it in doh p <- new_condition k c x; append_unique_part view (w_eq W) self (RPtr p)) items)).
    { apply tame_items; [exact FA|exact FK|]. intros it FI. destruct (in_nth2 _ FI) as [SC SX]. destruct (r_nth2 it) as [c x]. eapply tame_bind; [apply tame_new_condition; assumption|].
      intros p SP. apply tame_unique. exact SP. }
    assert (U : tame (fun _ => True) (for_each (append_unique_part view (w_eq W) self) args)) by (eapply tame_each; [exact FA|]; intros x SX; apply tame_unique; exact SX).
    destruct vs as [|v [|v' vs]]; [|destruct kwds|]; try (destruct (_ && _); [exact U|exact N]).
    destruct (is_sql v); [|exact N]. destruct FA as [|a l SA FA]; [apply tame_ret; exact Logic.I|]. destruct l; [apply tame_append; exact SA|apply tame_ret; exact Logic.I].
  Qed.
  Lemma tame_columns : forall W self args kwds, ink args kwds -> tame (fun _ => True) (h_columns W self args kwds).
  Proof.
    intros W self args kwds [FA FK]. apply tame_items; [exact FA|exact FK|]. intros it FI. destruct (in_nth2 _ FI) as [SC SX]. destruct (r_nth2 it) as [c x]. eapply (tame_bind _ _ S).
    - looks. checks. looks. checks. apply tame_alloc; [discriminate|]. constructor; [exact SC|]. constructor; [exact SX|constructor].
    - intros p SP. apply tame_unique. exact SP.
  Qed.
  Lemma tame_orders : forall W self args kwds, ink args kwds -> tame (fun _ => True) (h_orders W self args kwds).
  Proof.
    intros W self args kwds [FA FK]. apply tame_items; [exact FA|exact FK|]. intros it FI. unfold h_order1. destruct (in_nth2 _ FI) as [SC SX]. destruct (r_nth2 it) as [c x].
    looks. looks. looks. destruct x2 as [r|].
    - looks. apply tame_assign. exact Logic.I.
    - checks. looks. eapply tame_bind; [apply tame_alloc; [discriminate|]; constructor; [exact SC|]; constructor; [exact Logic.I|constructor]|]. intros p SP. apply tame_append. exact SP.
  Qed.
  Lemma tame_offset : forall self r, tame (fun _ => True) (h_offset self r).
  Proof. intros self r. looks. checks. destruct (truthy x); [looks|]; apply tame_assign; exact Logic.I. Qed.
  Lemma tame_limit : forall self r o, tame (fun _ => True) (h_limit self r o).
  Proof.
    intros self r o. looks. checks. assert (X : tame (fun _ => True) (doh z <- look (fun _ => py_int x); doh _ <- assign self "_limit" (aint z); doh vo <- look (fun h => view h o); if is_none vo then hret tt else h_offset self o)).
    { looks. eapply tame_bind; [apply tame_assign; exact Logic.I|]. intros _ _. looks. destruct (is_none x1); [apply tame_ret; exact Logic.I|apply tame_offset]. }
    destruct x; try exact X. eapply tame_bind; [apply tame_assign; exact Logic.I|]. intros _ _. apply tame_assign. exact Logic.I.
  Qed.
  Lemma tame_out : forall self f r, inS r -> tame (fun _ => True) (h_out self f r).
  Proof. intros self f r SR. looks. checks. apply tame_assign. exact SR. Qed.
  Lemma tame_new_table : forall m a, inS m -> inS a -> tame S (new_table m a).
  Proof.
    intros m a SM SA. looks. checks. looks. checks. eapply tame_bind; [apply tame_alloc; [discriminate|]; constructor|]. intros j SJ. apply tame_alloc; [discriminate|].
    constructor; [exact SM|]. constructor; [exact SA|]. constructor; [exact SJ|constructor].
  Qed.
  Lemma tame_tables : forall W self args kwds, ink args kwds -> tame (fun _ => True) (h_tables W self args kwds).
  Proof.
    intros W self args kwds [FA FK]. looks. apply tame_items; [|exact FK|].
    - apply Forall_forall. intros r I. apply in_map_iff in I. destruct I as ([r' v] & <- & I). apply filter_In in I. destruct I as [I _]. apply in_combine_l in I. rewrite Forall_forall in FA. exact (FA _ I).
    - intros it FI. destruct (in_nth2 _ FI) as [SC SX]. destruct (r_nth2 it) as [c y]. eapply tame_bind; [apply tame_new_table; assumption|]. intros p SP. apply tame_unique. exact SP.
  Qed.
  Lemma tame_last : forall self, inS self -> tame inS (last_table self).
  Proof.
    intros self SS. eapply tame_bind; [apply (tame_look _ (Forall inS)); intros h l F E; eapply in_parts; eauto|]. intros l FL. apply tame_look. intros h x _ E.
    destruct (last_ref l) as [r|] eqn:L; [injection E as <-; eapply in_last; eauto|discriminate].
  Qed.
  Lemma tame_joined : forall W arg, inS arg -> tame S (joined_table W arg).
  Proof.
    intros W arg SA h h' o F R. pose proof (in_elements _ F) as EL. unfold joined_table in R.
    assert (X : tame S (doh v <- look (fun h => view h arg); match v with VStr _ => new_table arg r_none | _ => doh _ <- look (fun _ => w_str W v); look (fun _ => Err EInvalidArgument) end)).
    { looks. assert (Y : tame S (doh _ <- look (fun _ => w_str W x); look (fun _ => Err EInvalidArgument))) by (looks; apply tame_fail). destruct x; try exact Y. apply tame_new_table; [exact SA|exact Logic.I]. }
    destruct (seq_at h arg) as [l|] eqn:SQ.
    - pose proof (el_seq _ _ EL _ _ SA SQ) as FL. destruct l as [|m [|a [|b l]]]; try (destruct (dict_at h arg) eqn:D; [destruct arg as [|p]; [discriminate|]; cbn in SQ, D; destruct (get h p) as [[[] ?]|]; discriminate|]; exact (X _ _ _ F R)).
      inversion FL as [|? ? F1 F2]; subst. inversion F2 as [|? ? F3 F4]; subst. exact (tame_new_table m a F1 F3 _ _ _ F R).
    - destruct (dict_at h arg) as [[|[m a] [|y l]]|] eqn:D; try exact (X _ _ _ F R). pose proof (el_dict _ _ EL _ _ SA D) as FD. inversion FD as [|? ? [F1 F2] _]; subst. cbn in F1, F2.
      assert (Y : tame S (doh _ <- change arg (fun _ => []); new_table m a)) by (eapply tame_bind; [apply tame_change; intros; constructor|intros _ _; apply tame_new_table; assumption]). exact (Y _ _ _ F R).
  Qed.
  Lemma tame_table_join : forall W ty arg t, inS arg -> tame (fun _ => True) (h_table_join W ty arg t).
  Proof.
    intros W ty arg t SA. eapply tame_bind; [apply tame_joined; exact SA|]. intros p SP. eapply tame_bind; [apply tame_new_parts; constructor|]. intros o SO.
    eapply tame_bind; [apply tame_alloc; [discriminate|]; repeat (constructor; [first [exact Logic.I|exact SP|exact SO]|]); constructor|]. intros d SD. looks. apply tame_push. exact SD.
  Qed.
  Lemma tame_join : forall W ty self arg, inS self -> inS arg -> tame (fun _ => True) (h_join W ty self arg).
  Proof.
    intros W ty self arg SS SA. assert (X : forall ty, tame (fun _ => True) (doh t <- last_table self; h_table_join W ty arg t)) by (intros ty'; eapply tame_bind; [apply tame_last; exact SS|intros t _; apply tame_table_join; exact SA]).
    destruct ty; try apply X. cbn [h_join]. destruct (supports_full_join _); [apply X|apply tame_fail].
  Qed.
  Lemma tame_on : forall W self args kwds, inS self -> ink args kwds -> tame (fun _ => True) (h_on W self args kwds).
  Proof.
    intros W self args kwds SS K. eapply tame_bind; [apply tame_last; exact SS|]. intros t _. looks. looks. looks. apply tame_where. exact K.
  Qed.
  Lemma tame_set : forall W self args kwds, ink args kwds -> tame (fun _ => True) (h_set W self args kwds).
  Proof.
    intros W self args kwds [FA FK]. unfold h_set.
    assert (N : tame (fun _ => True) (doh items <- look (fun h => r_parse_args W h pair_opts args kwds);
      for_each (fun it => let (c, x) := r_nth2 it in doh p <- new_value c x; append_unique_part view (w_eq W) self (RPtr p)) items)).
    { apply tame_items; [exact FA|exact FK|]. intros it FI. destruct (in_nth2 _ FI) as [SC SX]. destruct (r_nth2 it) as [c x]. eapply (tame_bind _ _ S).
      - looks. checks. looks. checks. apply tame_alloc; [discriminate|]. constructor; [exact SC|]. constructor; [exact SX|constructor].
      - intros p SP. apply tame_unique. exact SP. }
    cbv zeta. looks. destruct x as [|v [|v' vs]]; [|destruct kwds|]; try exact N. destruct (is_sql v); [|exact N].
    destruct FA as [|a l SA FA]; [apply tame_ret; exact Logic.I|]. destruct l; [apply tame_append; exact SA|apply tame_ret; exact Logic.I].
  Qed.
  Lemma tame_add_row : forall W self args kwds, ink args kwds -> tame (fun _ => True) (h_add_row W self args kwds).
  Proof.
    intros W self args kwds K. eapply tame_bind; [apply tame_new_parts; constructor|]. intros p SP. eapply tame_bind; [apply tame_set; exact K|]. intros _ _. apply tame_append. exact SP.
  Qed.
  Lemma tame_new_reference : forall v, inS v -> tame S (new_reference v).
  Proof.
    intros v SV h h' o (L & F & NN) R. unfold new_reference in R. injection R as <- <-. split; [split; [|split]|].
    - rewrite app_length. lia.
    - intros a r SA (k & l & b & G & I). destruct (Nat.lt_ge_cases a (List.length h)) as [X|X].
      + apply (F a); [exact SA|]. unfold get in *. rewrite nth_error_app1 in G by exact X. exists k, l, b. auto.
      + unfold get in G. rewrite nth_error_app2 in G by exact X.
        assert (Y : forall m, inS (RPtr (List.length h + m))) by (intros m; apply later; lia). pose proof (Y 0) as Y0. rewrite Nat.add_0_r in Y0.
        destruct (a - List.length h) as [|[|[|[|[|[|m]]]]]]; cbn in G; try (injection G as <- <-; cbn in I; repeat (destruct I as [I|I]; [injection I as <- <-; first [exact SV|exact Logic.I|apply Y|exact Y0]|]); contradiction). destruct m; discriminate.
    - intros y LY. unfold kind_of. destruct (Nat.lt_ge_cases y (List.length h)) as [X|X]; unfold get.
      + rewrite nth_error_app1 by exact X. exact (NN y LY).
      + rewrite nth_error_app2 by exact X. destruct (y - List.length h) as [|[|[|[|[|[|m]]]]]]; cbn; try discriminate. destruct m; discriminate.
    - intros x E. injection E as <-. apply later. exact L.
  Qed.
  Lemma tame_conflict : forall W self args kwds, ink args kwds -> tame (fun _ => True) (h_conflict W self args kwds).
  Proof.
    intros W self args kwds [FA FK]. unfold h_conflict. destruct FA as [|a l SA FA]; [apply tame_fail|]. looks.
    destruct x; try apply tame_fail. eapply tame_bind; [apply tame_new_reference; exact SA|]. intros p SP. eapply tame_bind; [apply tame_assign; exact SP|]. intros _ _. apply tame_set. split; assumption.
  Qed.
  Lemma tame_option : forall self e, tame (fun _ => True) (h_option self e).
  Proof. intros self e. looks. apply tame_store. exact Logic.I. Qed.
  Definition ing (g : rgroup) : Prop := inS (fst g) /\ Forall inS (snd g).
  Lemma in_group_add : forall W h j gs gs', inS j -> Forall ing gs -> r_group_add W h j gs = Ok gs' -> Forall ing gs'.
  Proof.
    intros W h j gs. induction gs as [|[d t] gs IH]; intros gs' SJ F E; cbn [r_group_add] in E.
    - injection E as <-. constructor; [split; [exact SJ|constructor]|constructor].
    - inversion F as [|? ? [F1 F2] F3]; subst. cbn [fst snd] in F1, F2. destruct (h_same_join W h d j) as [[]|]; [| |discriminate].
      + injection E as <-. constructor; [|exact F3]. split; [exact F1|]. cbn [snd]. apply Forall_app. split; [exact F2|]. constructor; [exact SJ|constructor].
      + destruct (r_group_add W h j gs) as [x|]; [|discriminate]. injection E as <-. constructor; [split; assumption|]. exact (IH _ SJ F3 eq_refl).
  Qed.
  Lemma in_group_joins : forall W h js gs gs', Forall inS js -> Forall ing gs -> r_group_joins W h js gs = Ok gs' -> Forall ing gs'.
  Proof.
    intros W h js. induction js as [|j js IH]; intros gs gs' FJ F E; cbn [r_group_joins] in E; [injection E as <-; exact F|].
    inversion FJ as [|? ? F1 F2]; subst. destruct (r_group_add W h j gs) as [x|] eqn:A; [|discriminate]. eapply IH; [exact F2| |exact E]. eapply in_group_add; [exact F1|exact F|exact A].
  Qed.
  Lemma tame_show : forall W i self, inS self -> tame (fun _ => True) (h_show W i self).
  Proof.
    intros W i self SS. eapply tame_bind; [apply (tame_look _ (Forall inS)); intros h l F E; eapply in_parts; eauto|]. intros l FL.
    destruct (nth_error l i) as [t|] eqn:N; [|apply tame_ret; exact Logic.I]. assert (ST : inS t) by (rewrite Forall_forall in FL; exact (FL _ (nth_error_In _ _ N))).
    eapply (tame_bind _ _ (Forall inS)).
    - apply tame_look. intros h x F E. destruct (attr h "_joins" t) as [j|] eqn:A; [|discriminate]. cbn [bind] in E. destruct (refs_at h OList j) as [y|] eqn:B; [|discriminate]. injection E as <-.
      apply in_items. eapply in_refs; [exact F|eapply in_attr; [exact F|apply inST; exact ST|exact A]|exact B].
    - intros js FJ. destruct js as [|j js]; [apply tame_ret; exact Logic.I|]. eapply (tame_bind _ _ (Forall ing)).
      + apply tame_look. intros h x F E. eapply in_group_joins; [exact FJ|constructor|exact E].
      + intros gs FG. eapply tame_bind; [apply tame_alloc; [discriminate|constructor]|]. intros p SP. eapply tame_bind; [apply tame_assign; exact SP|]. intros _ _.
        eapply tame_each; [exact FG|]. intros [d u] [SD SU]. cbn [fst snd] in SD, SU. unfold h_settle_group. looks.
        destruct (_ && existsb _ _); [eapply tame_bind; [apply tame_store; exact Logic.I|intros _ _; apply tame_push; exact SD]|].
        destruct (_ && forallb _ _); [apply tame_push; exact SD|]. eapply tame_each; [constructor; [exact SD|exact SU]|]. intros y SY. apply tame_push. exact SY.
  Qed.
  Lemma tame_part : forall k q f, T q -> (forall p, inS p -> tame (fun _ => True) (f p)) -> tame (fun _ => True) (at_part k q f).
  Proof. intros k q f SQ H. eapply tame_bind; [apply tame_attr; exact SQ|exact H]. Qed.
  Lemma tame_tuple : forall t a f, inS t -> inS a -> (forall p, inS p -> tame (fun _ => True) (f p)) -> tame (fun _ => True) (in_tuple t a f).
  Proof. intros t a f ST SA H. eapply tame_bind; [apply tame_alloc; [discriminate|]; constructor; [exact ST|]; constructor; [exact SA|constructor]|]. intros p SP. apply H. exact SP. Qed.
  Ltac one F := match type of F with Forall _ (?a :: _) => let A := fresh "A" in let B := fresh "B" in inversion F as [|? ? A B]; subst end.
  Lemma tame_call : forall W q c, T q -> Forall inS (call_refs c) -> tame (fun _ => True) (call W q c).
  Proof.
    intros W q c SQ F. destruct c as [[]|[]|[]|[]|]; cbn [call_refs sel_refs ins_refs upd_refs del_refs] in F; cbn [call h_sel_call h_ins_call h_upd_call h_del_call];
      try (apply tame_part; [exact SQ|]; intros p SP);
      try (apply ink_app in F);
      try (repeat match goal with X : Forall inS (_ :: _) |- _ => inversion X; clear X; subst end);
      first
        [ apply tame_columns; assumption | apply tame_tables; assumption | apply tame_where; assumption | apply tame_orders; assumption
        | apply tame_on; assumption | apply tame_set; assumption | apply tame_add_row; assumption | apply tame_join; assumption
        | apply tame_show; assumption | apply tame_limit | apply tame_offset | apply tame_out; assumption
        | apply tame_tuple; [assumption|assumption|]; intros x SX; apply tame_tables; split; [constructor; [exact SX|constructor]|constructor]
        | apply tame_tables; split; [constructor; [assumption|constructor]|constructor]
        | apply tame_tables; split; [assumption|constructor]
        | looks; apply tame_option | looks; apply tame_assign; exact Logic.I | apply tame_assign; exact Logic.I | idtac ].
    (* on_duplicate_key_update *)
    eapply (tame_bind _ _ (fun _ => True)); [destruct (supports_on_duplicate_key_update _); [apply tame_part; [exact SQ|]; intros p SP; apply tame_set; assumption|apply tame_ret; exact Logic.I]|]. intros _ _.
    eapply (tame_bind _ _ (fun _ => True)); [destruct (supports_on_conflict_do_update _); [apply tame_part; [exact SQ|]; intros p SP; apply tame_conflict; assumption|apply tame_ret; exact Logic.I]|]. intros _ _.
    destruct (supports_replace_into _); [|apply tame_ret; exact Logic.I]. destruct (_ || _); [apply tame_fail|]. looks. looks. apply tame_assign. exact Logic.I.
  Qed.
End Trace.

(** What a query leads to after a call: new objects, and what it or an argument led to before. *)
Lemma call_trace : forall W q c h h' o x, closed h -> call W q c h = (h', o) -> reach h' (RPtr q) (RPtr x) ->
  (List.length h <= x /\ kind_of h' x <> Some OGen) \/ reach h (RPtr q) (RPtr x) \/ exists r, In r (call_refs c) /\ reach h r (RPtr x).
Proof.
  intros W q c h h' o x CL CA RX.
  set (S := fun p => List.length h <= p \/ reach h (RPtr q) (RPtr p) \/ exists r, In r (call_refs c) /\ reach h r (RPtr p)).
  assert (LA : forall p, List.length h <= p -> S p) by (intros p L; left; exact L).
  assert (FE : fenced S S (List.length h) h).
  { split; [lia|]. split.
    - intros a [b|b] SA RF; [exact Logic.I|]. cbn. destruct SA as [L|[R|(r & I & R)]].
      + exfalso. destruct RF as (k & l & y & G & _). apply get_lt in G. lia.
      + right. left. eapply reach_trans; [exact R|]. eapply reach_step; [exact RF|apply reach_refl].
      + right. right. exists r. split; [exact I|]. eapply reach_trans; [exact R|]. eapply reach_step; [exact RF|apply reach_refl].
    - intros p L. unfold kind_of. destruct (get h p) eqn:G; [|discriminate]. apply get_lt in G. lia. }
  destruct (tame_call S S (List.length h) LA (fun p H => H) W q c) with (h := h) (h' := h') (o := o) as [(_ & F & NN) _].
  - right. left. apply reach_refl.
  - apply Forall_forall. intros [a|p] I; [exact Logic.I|]. right. right. exists (RPtr p). split; [exact I|apply reach_refl].
  - exact FE.
  - exact CA.
  - assert (X : forall a b, reach h' a b -> inS S a -> inS S b).
    { intros a b R. induction R as [r|p r s RF R IH]; intros SA; [exact SA|]. apply IH. exact (F _ _ SA RF). }
    assert (Y : inS S (RPtr x)) by (apply (X _ _ RX); right; left; apply reach_refl). cbn in Y. destruct Y as [L|Y]; [left; split; [exact L|exact (NN x L)]|right; exact Y].
Qed.
(** A query that is not inside itself or the arguments is not inside itself after the call. *)
Lemma call_unlooped : forall W q c h h' o, q < List.length h -> ~ refers h q (RPtr q) -> call W q c h = (h', o) -> unlooped h q -> apart h q c -> unlooped h' q.
Proof.
  intros W q c h h' o LQ NS CA UN AP.
  set (S := fun p => List.length h <= p \/ (p <> q /\ (reach h (RPtr q) (RPtr p) \/ exists r, In r (call_refs c) /\ reach h r (RPtr p)))).
  assert (LA : forall p, List.length h <= p -> S p) by (intros p L; left; exact L).
  assert (FE : fenced S (fun p => S p \/ p = q) (List.length h) h).
  { split; [lia|]. split.
    - intros a [b|b] SA RF; [exact Logic.I|]. cbn. destruct SA as [[L|(NE & [R|(r & I & R)])]| ->].
      + exfalso. destruct RF as (k & l & y & G & _). apply get_lt in G. lia.
      + right. split; [intros ->; apply (UN _ NE R); eapply reach_step; [exact RF|apply reach_refl]|]. left. eapply reach_trans; [exact R|]. eapply reach_step; [exact RF|apply reach_refl].
      + assert (RB : reach h r (RPtr b)) by (eapply reach_trans; [exact R|]; eapply reach_step; [exact RF|apply reach_refl]).
        right. split; [intros ->; exact (AP _ I RB)|]. right. exists r. auto.
      + right. split; [intros ->; exact (NS RF)|]. left. eapply reach_step; [exact RF|apply reach_refl].
    - intros p L. unfold kind_of. destruct (get h p) eqn:G; [|discriminate]. apply get_lt in G. lia. }
  destruct (tame_call S (fun p => S p \/ p = q) (List.length h) LA (fun p H => or_introl H) W q c) with (h := h) (h' := h') (o := o) as [(_ & F & _) _].
  - right. reflexivity.
  - apply Forall_forall. intros [a|p] I; [exact Logic.I|]. right. split; [intros ->; exact (AP _ I (reach_refl _ _))|]. right. exists (RPtr p). split; [exact I|apply reach_refl].
  - exact FE.
  - exact CA.
  - assert (X : forall a b, reach h' a b -> inS S a -> inS S b).
    { intros a b R. induction R as [r|p r s RF R IH]; intros SA; [exact SA|]. apply IH. exact (F _ _ (or_introl SA) RF). }
    assert (NQ : ~ S q) by (intros [L|[N _]]; [lia|apply N; reflexivity]).
    intros p NE RP RB. apply NQ. change (inS S (RPtr q)). apply (X _ _ RB). inversion RP as [x E1 E2|x y z RF R' E1 E2]; subst; [contradiction NE; reflexivity|].
    apply (X _ _ R'). exact (F _ _ (or_intror eq_refl) RF).
Qed.
