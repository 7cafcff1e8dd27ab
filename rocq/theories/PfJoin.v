(** Proofs about select programs over several tables: C74. *)
From Coq Require Import Lia Permutation Sorted.
From Verif Require Import Base BaseFacts NumFmt Value Backend Eq Render RenderFacts ParseArgs Build Queries History
  SpecLex SpecRef SpecLogic SpecConds SpecHistory SpecArgs SpecErrors SpecWhole SpecSql SpecServer SpecProgram SpecJoin
  PfArgs PfErrors PfAccept PfHistories PfDedupe PfLiterals PfSqlExec PfServer PfProgram.
Open Scope N_scope.

(** The value of an expression, given the values of columns. *)
Definition val_at (sv : server) (at_ : path -> literal) (e : expr) : literal :=
  match e with EColumn p => at_ p | ECall f d ps => call sv f d (map at_ ps) end.
Definition chosen (b : backend) (sv : server) (at_ : path -> literal) (ps : list val) : bool :=
  is_true (asked_all b (compare sv) (val_at sv at_) ps).

(** ** Conditions made one after the other *)
Section Loop.
  Context (b : backend) (k : condk) (C : val -> Prop) (P : val * val -> Prop) (Hold : server -> (path -> literal) -> val * val -> t3)
    (total : forall r x y, C x -> C y -> exists z, pyeq r x y = Ok z)
    (same : forall r sv at_ x y, mirrored sv -> C x -> C y -> pyeq r x y = Ok true ->
       asked_one b (compare sv) (val_at sv at_) x = asked_one b (compare sv) (val_at sv at_) y)
    (single : forall x cmp value, C x -> asked b cmp value x = asked_one b cmp value x)
    (made : forall p, P p -> exists x, mk_condition k (fst p) (snd p) = Ok x /\ C x /\
       forall sv at_, asked_one b (compare sv) (val_at sv at_) x = Hold sv at_ p).
  Lemma chosen_snoc : forall sv at_ ps x, C x -> chosen b sv at_ (ps ++ [x]) = chosen b sv at_ ps && is_true (asked_one b (compare sv) (val_at sv at_) x).
  Proof.
    intros sv at_ ps x X. unfold chosen, asked_all.
    induction ps as [|y ps IH]; cbn [fold_right app].
    - rewrite and3_true, andb_true_r, single by exact X. reflexivity.
    - rewrite !and3_true, IH. now rewrite andb_assoc.
  Qed.
  Lemma chosen_in : forall sv at_ ps x, In x ps -> C x -> chosen b sv at_ ps = true -> is_true (asked_one b (compare sv) (val_at sv at_) x) = true.
  Proof.
    intros sv at_ ps x I X. unfold chosen, asked_all. induction ps as [|y ps IH]; [destruct I|]. cbn [fold_right]. rewrite and3_true.
    intros H. apply andb_prop in H. destruct H as [H1 H2]. destruct I as [->|I]; [|exact (IH I H2)]. now rewrite single in H1.
  Qed.
  Lemma any_made : forall E ps x, Forall C ps -> C x -> exists z, anyM (fun p => py_eq E p x) ps = Ok z /\
    (z = true -> exists p, In p ps /\ C p /\ pyeq (text E) p x = Ok true).
  Proof.
    intros E ps x F X. induction F as [|p ps Hp F IH]; cbn [anyM]; [exists false; split; [reflexivity|discriminate]|].
    destruct IH as [z [A B]]. unfold py_eq at 1. destruct (total (text E) p x Hp X) as [[] Q]; rewrite Q; cbn [ror].
    - exists true. split; [reflexivity|]. intros _. exists p. split; [now left|auto].
    - exists z. split; [exact A|]. intros Z. destruct (B Z) as [p' [I R]]. exists p'. split; [now right|exact R].
  Qed.
  Lemma made_loop : forall E pairs ps, Forall P pairs -> Forall C ps ->
    exists ps', foldE (fun s p => commit s (do x <- mk_condition k (fst p) (snd p); append_unique (py_eq E) s x)) ps pairs = (ps', Ok tt) /\
      Forall C ps' /\
      forall sv at_, mirrored sv -> chosen b sv at_ ps' = chosen b sv at_ ps && forallb (fun p => is_true (Hold sv at_ p)) pairs.
  Proof.
    intros E pairs. induction pairs as [|p pairs IH]; intros ps FP F.
    - exists ps. repeat split; auto. intros sv at_ _. cbn [forallb]. now rewrite andb_true_r.
    - inversion FP as [|? ? P1 P2]; subst. destruct (made p P1) as [x [M [X A]]]. destruct (any_made E ps x F X) as [z [Z1 Z2]].
      set (ps1 := if z then ps else ps ++ [x]).
      assert (F1 : Forall C ps1) by (unfold ps1; destruct z; [exact F|apply Forall_app; auto]).
      destruct (IH ps1 P2 F1) as [ps' [R [F' S]]]. exists ps'. split; [|split; [exact F'|]].
      + cbn [foldE fst snd]. rewrite M. cbn [bind]. unfold append_unique. rewrite Z1. cbn [bind commit]. exact R.
      + intros sv at_ MI. rewrite S by exact MI. cbn [forallb]. rewrite andb_assoc. f_equal. unfold ps1. rewrite <- A.
        destruct z; [|apply chosen_snoc; exact X]. destruct (Z2 eq_refl) as [y [I [Py Q]]].
        destruct (chosen b sv at_ ps) eqn:Y; [|reflexivity]. cbn [andb]. rewrite <- (same (text E) sv at_ y x MI Py X Q). symmetry. eapply chosen_in; eauto.
  Qed.
  Lemma made_call : forall E a kw pairs ps, keys_ok a kw -> some_data a -> pair_args a kw pairs -> Forall P pairs -> Forall C ps ->
    exists ps', conds_where (pure_world E) k ps a kw = (ps', Ok tt) /\ Forall C ps' /\
      forall sv at_, mirrored sv -> chosen b sv at_ ps' = chosen b sv at_ ps && forallb (fun p => is_true (Hold sv at_ p)) pairs.
  Proof.
    intros E a kw pairs ps K D A G F. rewrite (where_plainly _ _ _ _ _ D). destruct (parsed_pairs (pure_world E) a kw K) as [B _].
    rewrite (B pairs A), (foldE_batches _ (fun s c0 v => commit s (do x <- mk_condition k c0 v; append_unique (py_eq E) s x))). exact (made_loop E pairs ps G F).
  Qed.
End Loop.

(** ** WHERE *)
Section Kinds.
  Context (b : backend).
  Lemma made_where : forall p, where_pair b p -> exists x, mk_condition KWhere (fst p) (snd p) = Ok x /\ where_cond b x /\
    forall sv at_, asked_one b (compare sv) (val_at sv at_) x = holds b sv (at_ (segments (fst p))) (snd p).
  Proof.
    intros [c0 v] [[c [Hc G]] V]. cbn [fst snd] in *. subst c0. unfold mk_condition. change (check_type [Value.TStr] (VStr c)) with true. cbn [negb].
    assert (D : forall rk x, content b rk x -> where_cond b (VCond KWhere (VStr c) rk x)) by (intros; exists c, rk, x; auto).
    assert (DD : forall rk x sv at_, (rk = RIn \/ rk = RNotIn -> False) -> datum b x -> asked_one b (compare sv) (val_at sv at_) (VCond KWhere (VStr c) rk x) =
        match operator_of rk, literal_of b x with Some o, Some l => compare3 (compare sv) o (at_ (name_segments c)) l | _, _ => None end).
    { intros rk x sv at_ NI X. destruct rk; try (exfalso; tauto); destruct x as [| | |x|x| | | | | | | | | | | | | | | | | | | | | | | | | |]; try contradiction; try reflexivity; destruct x; try contradiction; reflexivity. }
    destruct v; try contradiction; cbn [condition_value] in V;
      try (eexists; split; [reflexivity|]; split; [apply D; exact V|]; intros sv at_; rewrite DD; [reflexivity|intros [Q|Q]; discriminate Q|exact V]; fail).
    - (* a list *) destruct V as [K [L F]].
      assert (X : check_type cond_value_types (VSeq k l) = true /\ mk_rel (default_rel (VSeq k l)) (VSeq k l) = Ok (VRel RIn (VSeq KList l))).
      { cbn [In] in K. repeat (destruct K as [<-|K]; [split; reflexivity|]). destruct K. }
      destruct X as [-> ->]. cbn [negb bind]. eexists. split; [reflexivity|]. split; [apply D; exists l; auto|reflexivity].
    - (* a relation *) cbn [bind]. change (check_type cond_value_types (VRel k v)) with true. cbn [negb]. eexists. split; [reflexivity|].
      destruct k; try (split; [apply D; exact V|]; intros sv at_; rewrite DD; [reflexivity|intros [Q|Q]; discriminate Q|exact V]; fail).
      all: destruct v as [ | | | | | | | | |[] l| | | | | | | | | | | | | | | | | | | | | ]; try contradiction; destruct V as [L F]; (split; [apply D; exists l; auto|reflexivity]).
  Qed.
  Lemma where_single : forall x cmp value, where_cond b x -> asked b cmp value x = asked_one b cmp value x.
  Proof. intros x cmp value [c [rk [v [-> _]]]]. reflexivity. Qed.
  Lemma where_effect : forall E a kw pairs ps, where_call b a kw pairs -> Forall (where_cond b) ps ->
    exists ps', conds_where (pure_world E) KWhere ps a kw = (ps', Ok tt) /\ Forall (where_cond b) ps' /\
      forall sv at_, mirrored sv -> chosen b sv at_ ps' = chosen b sv at_ ps && where_holds b sv at_ pairs.
  Proof.
    intros E a kw pairs ps [K [D [A G]]] F.
    exact (made_call b KWhere (where_cond b) (where_pair b) (fun sv at_ p => holds b sv (at_ (segments (fst p))) (snd p)) (cond_total b)
      (fun r sv at_ x y _ X Y Q => cond_same b r x y _ _ X Y Q) where_single made_where E a kw pairs ps K D A G F).
  Qed.

  (** ** ON *)
  Definition on_content (rk : relk) (v : val) : Prop :=
    match rk with
    | RIn | RNotIn => exists l, v = VSeq KList l /\ l <> [] /\ Forall (datum b) l
    | _ => match v with VStr d => good_name (quote_of b) d | _ => datum b v end
    end.
  Definition on_cond (x : val) : Prop :=
    exists c rk v, x = VCond KOn (VStr c) rk v /\ good_name (quote_of b) c /\ on_content rk v.
  Lemma name_datum : forall d, good_name (quote_of b) d -> datum b (VStr d).
  Proof. intros d [G _]. cbn [datum]. now apply no_quote_is_value. Qed.
  Lemma on_is_content : forall rk v, on_content rk v -> content b rk v.
  Proof. intros rk v X. destruct rk; cbn [on_content content] in *; try exact X; destruct v; try exact X; now apply name_datum. Qed.
  Lemma rand_total : forall x y, (exists z, x = Ok z) -> (exists z, y = Ok z) -> exists z, rand x y = Ok z.
  Proof. intros x y [[] ->] [z ->]; eexists; reflexivity. Qed.
  Lemma ror_total : forall x y, (exists z, x = Ok z) -> (exists z, y = Ok z) -> exists z, ror x y = Ok z.
  Proof. intros x y [[] ->] [z ->]; eexists; reflexivity. Qed.
  Lemma str_total : forall r s v, (exists rk, on_content rk v) -> exists z, pyeq r (VStr s) v = Ok z.
  Proof.
    intros r s v [rk X]. destruct v; try (eexists; reflexivity); destruct rk; cbn [on_content datum] in X; try contradiction;
      destruct X as [l' [Q _]]; discriminate Q.
  Qed.
  Lemma on_total : forall r x y, on_cond x -> on_cond y -> exists z, pyeq r x y = Ok z.
  Proof.
    intros r x y [c [rk [v [-> [_ V]]]]] [c' [rk' [v' [-> [_ V']]]]]. cbn [pyeq textual_eq].
    apply ror_total.
    - apply rand_total; [eexists; reflexivity|]. apply rand_total; [|eexists; reflexivity].
      apply (content_total b r rk v rk' v'); now apply on_is_content.
    - destruct v; try (eexists; reflexivity). apply rand_total; [eexists; reflexivity|]. apply rand_total; [|eexists; reflexivity].
      apply str_total. eauto.
  Qed.
  Lemma str_same : forall r s rk v, on_content rk v -> pyeq r (VStr s) v = Ok true -> v = VStr s.
  Proof.
    intros r s rk v X Q. destruct v; try discriminate Q; try (destruct rk; cbn [on_content datum] in X; try contradiction; destruct X as [l' [Q' _]]; discriminate Q').
    injection Q as Q. apply seqb_eq in Q. now subst.
  Qed.
  Lemma on_same : forall r sv at_ x y, mirrored sv -> on_cond x -> on_cond y -> pyeq r x y = Ok true ->
    asked_one b (compare sv) (val_at sv at_) x = asked_one b (compare sv) (val_at sv at_) y.
  Proof.
    intros r sv at_ x y MI [c [rk [v [-> [_ V]]]]] [c' [rk' [v' [-> [_ V']]]]] H. cbn [pyeq textual_eq] in H.
    assert (Z : rand (Ok (seqb c c')) (rand (pyeq r v v') (Ok (relk_eqb rk rk'))) = Ok true \/
      exists d, v = VStr d /\ rand (pyeq r (VStr d) (VStr c')) (rand (pyeq r (VStr c) v') (Ok match revert rk with Some k2 => relk_eqb k2 rk' | None => false end)) = Ok true).
    { destruct (rand _ _) as [[]|] eqn:Q in H; cbn [ror] in H; [now left| |discriminate]. right. destruct v; try discriminate. eauto. }
    clear H. destruct Z as [H|[d [-> H]]].
    - apply rand_true in H. destruct H as [H1 H]. apply rand_true in H. destruct H as [H2 H3]. injection H1 as H1. apply seqb_eq in H1. subst c'.
      injection H3 as H3. assert (rk' = rk) as -> by (destruct rk, rk'; try discriminate; reflexivity).
      assert (ST : forall d, v = VStr d -> v' = VStr d) by (intros d ->; exact (str_same r d rk v' V' H2)).
      assert (TS : forall d, v' = VStr d -> v = VStr d).
      { intros d ->. destruct v; cbn [pyeq textual_eq] in H2; try discriminate H2;
          try (destruct rk; cbn [on_content datum] in V; try contradiction; destruct V as [l' [Q' _]]; discriminate Q').
        injection H2 as H2. apply seqb_eq in H2. now subst. }
      assert (DV : forall rk v, on_content rk v -> rk <> RIn -> rk <> RNotIn -> datum b v).
      { intros k0 w X N1 N2. destruct k0; try congruence; destruct w; try exact X; now apply name_datum. }
      assert (OT : rk <> RIn -> rk <> RNotIn -> operand_of b KOn v = operand_of b KOn v').
      { intros N1 N2. pose proof (DV _ _ V N1 N2) as D1. pose proof (DV _ _ V' N1 N2) as D2. destruct (datum_same b r v v' D1 D2 H2) as [L _].
        destruct v; try contradiction; try (now rewrite (ST _ eq_refl)); destruct v'; try contradiction; try (discriminate (TS _ eq_refl));
          cbn [operand_of]; exact (f_equal (option_map OLiteral) L). }
      destruct rk; cbn [asked_one]; destruct (expr_of (VStr c)); try reflexivity; try (rewrite OT by discriminate; reflexivity).
      + cbn [on_content] in V, V'. destruct V as [l [-> [_ L]]], V' as [m [-> [_ M]]]. destruct (list_same b r l m L M H2) as [A B]. unfold one_of. now rewrite A, B.
      + cbn [on_content] in V, V'. destruct V as [l [-> [_ L]]], V' as [m [-> [_ M]]]. destruct (list_same b r l m L M H2) as [A B]. unfold none_of. now rewrite A, B.
    - apply rand_true in H. destruct H as [H1 H]. apply rand_true in H. destruct H as [H2 H3].
      cbn [pyeq textual_eq] in H1. injection H1 as H1. apply seqb_eq in H1. subst c'. pose proof (str_same r c rk' v' V' H2) as ->. injection H3 as H3.
      cbn [asked_one expr_of path_of option_map].
      set (x := at_ (name_segments c)). set (y := at_ (name_segments d)).
      assert (N : null x || null y = null y || null x) by apply orb_comm.
      destruct (MI x y) as [M1 [M2 [M3 M4]]]. destruct (MI y x) as [_ [_ [M5 M6]]].
      destruct rk; cbn [revert] in H3; try discriminate H3; destruct rk'; try discriminate H3;
        cbn [operator_of operand_of expr_of path_of option_map operand_value val_at]; fold x y; cbn [compare3]; rewrite N; destruct (null y || null x); try reflexivity; congruence.
  Qed.
  Lemma on_single : forall x cmp value, on_cond x -> asked b cmp value x = asked_one b cmp value x.
  Proof. intros x cmp value [c [rk [v [-> _]]]]. reflexivity. Qed.
  Lemma made_on : forall p, on_pair b p -> exists x, mk_condition KOn (fst p) (snd p) = Ok x /\ on_cond x /\
    forall sv at_, asked_one b (compare sv) (val_at sv at_) x = on_holds b sv at_ (at_ (segments (fst p))) (snd p).
  Proof.
    intros [c0 v] [[c [Hc G]] V]. cbn [fst snd] in *. subst c0. unfold mk_condition. change (check_type [Value.TStr] (VStr c)) with true. cbn [negb].
    assert (D : forall rk x, on_content rk x -> on_cond (VCond KOn (VStr c) rk x)) by (intros; exists c, rk, x; auto).
    assert (DD : forall rk x sv at_, (rk = RIn \/ rk = RNotIn -> False) -> datum b x -> (forall d, x <> VStr d) -> asked_one b (compare sv) (val_at sv at_) (VCond KOn (VStr c) rk x) =
        match operator_of rk, literal_of b x with Some o, Some l => compare3 (compare sv) o (at_ (name_segments c)) l | _, _ => None end).
    { intros rk x sv at_ NI X NS. destruct rk; try (exfalso; tauto); destruct x as [| | |x|x| | | | | | | | | | | | | | | | | | | | | | | | | |]; try contradiction; try reflexivity; try (exfalso; eapply NS; reflexivity); destruct x; try contradiction; reflexivity. }
    destruct v; try contradiction; cbn [on_value condition_value] in V;
      try (eexists; split; [reflexivity|]; split; [apply D; exact V|]; intros sv at_; rewrite DD; [reflexivity|intros [Q|Q]; discriminate Q|exact V|discriminate]; fail).
    - (* a column *) eexists. split; [reflexivity|]. split; [apply D; exact V|reflexivity].
    - (* a list *) destruct V as [K [L F]].
      assert (X : check_type cond_value_types (VSeq k l) = true /\ mk_rel (default_rel (VSeq k l)) (VSeq k l) = Ok (VRel RIn (VSeq KList l))).
      { cbn [In] in K. repeat (destruct K as [<-|K]; [split; reflexivity|]). destruct K. }
      destruct X as [-> ->]. cbn [negb bind]. eexists. split; [reflexivity|]. split; [apply D; exists l; auto|reflexivity].
    - (* a relation *) cbn [bind]. change (check_type cond_value_types (VRel k v)) with true. cbn [negb]. eexists. split; [reflexivity|].
      destruct v as [ | | | | | | | | |kk l| | | | | | | | | | | | | | | | | | | | | ]; try (destruct k; contradiction).
      all: destruct k; try contradiction; try match type of V with (_ <> _ /\ _ <> _ /\ _) => destruct V as [V1 [V2 V3]]; try congruence end.
      all: try (split; [apply D; exact V|]; intros sv at_; rewrite DD; [reflexivity|intros [Q|Q]; discriminate Q|exact V|discriminate]; fail).
      all: try (split; [apply D; exact V3|reflexivity]; fail).
      all: destruct kk; try contradiction; destruct V as [L F]; (split; [apply D; exists l; auto|reflexivity]).
  Qed.
  Lemma on_effect : forall E a kw pairs ps, keys_ok a kw -> some_data a -> pair_args a kw pairs -> Forall (on_pair b) pairs -> Forall on_cond ps ->
    exists ps', conds_where (pure_world E) KOn ps a kw = (ps', Ok tt) /\ Forall on_cond ps' /\
      forall sv at_, mirrored sv -> chosen b sv at_ ps' = chosen b sv at_ ps && on_hold b sv at_ pairs.
  Proof.
    intros E a kw pairs ps K D A G F.
    exact (made_call b KOn on_cond (on_pair b) (fun sv at_ p => on_holds b sv at_ (at_ (segments (fst p))) (snd p)) on_total on_same on_single made_on E a kw pairs ps K D A G F).
  Qed.
  Lemma on_cond_ok : forall x, on_cond x -> cond_ok b x.
  Proof.
    assert (L : forall v, datum b v -> value_ok b v /\ literal_of b v <> None).
    { intros v V. destruct (datum_literal_of b v V) as [y Y]. rewrite Y. split; [|discriminate]. destruct v; try contradiction; first [exact Logic.I|exact V]. }
    intros x [c [rk [v [-> [G V]]]]]. apply co_one. split; [exact G|].
    assert (D : match v with VStr d => good_name (quote_of b) d | _ => datum b v end -> operand_ok b KOn v /\ operand_of b KOn v <> None).
    { intros X. destruct v; try contradiction; try (split; [exact X|discriminate]); destruct (L _ X) as [A B]; (split; [exact A|]); cbn [operand_of]; destruct (datum_literal_of b _ X) as [y Y]; rewrite Y; discriminate. }
    assert (I : forall l, v = VSeq KList l -> l <> [] -> Forall (datum b) l -> l <> [] /\ All (fun x => value_ok b x /\ literal_of b x <> None) l).
    { intros l _ N F. split; [exact N|]. clear N. induction F; cbn [All]; auto. }
    destruct rk; cbn [on_content] in V; try (destruct (D V) as [X Y]; destruct v; try contradiction; exact (Logic.conj X Y)).
    all: destruct V as [l [Q [N F]]]; rewrite Q; apply I; auto.
  Qed.
End Kinds.

(** ** The tables of the query *)
Section Tables.
  Context (b : backend).
  Definition join_state (x : asked_join) (j : join val) : Prop :=
    aj_kind x = kind_of_join (j_type j) /\ aj_table x = j_name j /\ aj_alias x = j_alias j /\ plain_table b (aj_table x, aj_alias x) /\
    Forall (on_cond b) (j_ons j) /\ forall sv at_, mirrored sv -> chosen b sv at_ (j_ons j) = on_hold b sv at_ (aj_on x).
  Definition table_state (x : asked_table) (t : table val) : Prop :=
    at_table x = tb_name t /\ at_alias x = tb_alias t /\ plain_table b (at_table x, at_alias x) /\ Forall2 join_state (at_joins x) (tb_joins t).

  Lemma change_last_snoc : forall A (f : A -> option A) l x, change_last f (l ++ [x]) = option_map (fun y => l ++ [y]) (f x).
  Proof.
    intros A f l x. induction l as [|y l IH]; [reflexivity|]. change ((y :: l) ++ [x]) with (y :: (l ++ [x])). cbn [change_last].
    assert (N : l ++ [x] <> []) by (destruct l; discriminate). rewrite IH. destruct (l ++ [x]) as [|z w] eqn:Q; [congruence|]. now destruct (f x).
  Qed.
  Lemma change_last_nil : forall A (f : A -> option A), change_last f [] = None.
  Proof. reflexivity. Qed.
  Lemma names_grow : forall p ts ts', add_part ts p = Some ts' -> exists more, flat_map names_of ts' = flat_map names_of ts ++ more.
  Proof.
    intros p ts ts' H. destruct p as [l|k t a|ps]; cbn [add_part] in H.
    - injection H as <-. rewrite flat_map_app. eauto.
    - destruct ts as [|x ts _] using rev_ind; [discriminate|]. rewrite change_last_snoc in H. injection H as <-. rewrite !flat_map_app.
      cbn [flat_map]. rewrite !app_nil_r. exists [known_as t a]. rewrite <- app_assoc. f_equal. unfold names_of. cbn [at_table at_alias at_joins]. now rewrite map_app.
    - destruct ts as [|x ts _] using rev_ind; [discriminate|]. rewrite change_last_snoc in H.
      destruct x as [t a js]. cbn [at_joins at_table at_alias] in H. destruct js as [|j js _] using rev_ind; [discriminate|]. rewrite change_last_snoc in H.
      injection H as <-. exists []. rewrite app_nil_r, !flat_map_app. f_equal. cbn [flat_map]. f_equal. unfold names_of. cbn [at_table at_alias at_joins]. now rewrite !map_app.
  Qed.
  (** Tables that are known by other names are other tables. *)
  Lemma other_table : forall E x t n a, table_state x t -> plain_table b (n, a) -> known_as (at_table x) (at_alias x) <> known_as n a ->
    table_eq (py_eq E) t (MkTable n a []) = Ok false.
  Proof.
    intros E x [n' a' js] n a [H1 [H2 [H3 _]]] P D. cbn [tb_name tb_alias] in H1, H2. destruct x as [n2 a2 js2]. cbn [at_table at_alias] in *. subst n2 a2.
    destruct H3 as [[s [S1 _]] A1], P as [[t [T1 _]] A2]. cbn [fst snd] in *. subst n n'. unfold table_eq, py_eq. cbn [pyeq textual_eq].
    destruct (seqb s t) eqn:Q; [|reflexivity]. apply seqb_eq in Q. subst t.
    destruct A1 as [-> |[u [-> _]]], A2 as [-> |[w [-> _]]]; cbn [pyeq textual_eq is_none rand].
    - exfalso. now apply D.
    - reflexivity.
    - reflexivity.
    - destruct (seqb u w) eqn:Q; [|reflexivity]. apply seqb_eq in Q. subst. exfalso. now apply D.
  Qed.
  Lemma plain_made : forall p, plain_table b p -> mk_table (fst p) (snd p) = Ok p.
  Proof. intros [n a] [[s [S _]] A]. cbn [fst snd] in *. subst n. destruct A as [-> |[u [-> _]]]; reflexivity. Qed.
  Definition fresh (p : val * val) : asked_table := MkAT (fst p) (snd p) [].
  Lemma from_loop : forall E ps xs ts, Forall (plain_table b) ps -> Forall2 table_state xs ts ->
    NoDup (flat_map names_of (xs ++ map fresh ps)) ->
    exists ts', foldE (fun s p => commit s (do x <- mk_table (fst p) (snd p); append_unique (table_eq (py_eq E)) s (MkTable (fst x) (snd x) []))) ts ps = (ts', Ok tt) /\
      Forall2 table_state (xs ++ map fresh ps) ts'.
  Proof.
    intros E ps. induction ps as [|p ps IH]; intros xs ts P F N.
    - exists ts. cbn [map foldE]. rewrite app_nil_r. auto.
    - inversion P as [|? ? P1 P2]; subst. cbn [map] in N |- *. cbn [foldE]. rewrite (plain_made p P1). cbn [bind]. unfold append_unique.
      assert (A : anyM (fun t => table_eq (py_eq E) t (MkTable (fst p) (snd p) [])) ts = Ok false).
      { assert (ND : forall x, In x xs -> known_as (at_table x) (at_alias x) <> known_as (fst p) (snd p)).
        { intros x I Q. rewrite flat_map_app in N. cbn [flat_map] in N. apply NoDup_remove_2 in N. apply N. apply in_or_app. left. apply in_flat_map. exists x.
          split; [exact I|]. left. exact Q. }
        clear -F P1 ND. induction F as [|x t xs ts S F IH]; [reflexivity|]. cbn [anyM].
        rewrite (other_table E x t (fst p) (snd p) S); [|now destruct p|apply ND; now left]. cbn [ror]. apply IH. intros y I. apply ND. now right. }
      rewrite A. cbn [bind commit].
      change (xs ++ fresh p :: map fresh ps) with (xs ++ [fresh p] ++ map fresh ps) in N |- *. rewrite app_assoc in N |- *.
      apply IH; [exact P2| |exact N]. apply Forall2_app; [exact F|]. constructor; [|constructor].
      split; [reflexivity|]. split; [reflexivity|]. split; [now destruct p|constructor].
  Qed.
  Lemma from_call : forall E a k ps xs ts, keys_ok (filter truthy a) k -> alias_args (filter truthy a) k ps -> Forall (plain_table b) ps ->
    Forall2 table_state xs ts -> NoDup (flat_map names_of (xs ++ map fresh ps)) ->
    exists ts', tables_set (pure_world E) ts a k = (ts', Ok tt) /\ Forall2 table_state (xs ++ map fresh ps) ts'.
  Proof.
    intros E a k ps xs ts K A P F N. unfold tables_set. destruct (parsed_names (pure_world E) (filter truthy a) k K) as [X _]. rewrite (X ps A).
    change (exists ts', foldE (fun s it => let (n, a) := nth2 it in commit s (do x <- mk_table n a; append_unique (table_eq (py_eq E)) s (MkTable (fst x) (snd x) []))) ts (batches ps) = (ts', Ok tt) /\
      Forall2 table_state (xs ++ map fresh ps) ts').
    rewrite (foldE_batches _ (fun s n a => commit s (do x <- mk_table n a; append_unique (table_eq (py_eq E)) s (MkTable (fst x) (snd x) [])))).
    now apply from_loop.
  Qed.
  Lemma part_step : forall E bo op g xs xs' ts p, join_call b (supper E) bo op g -> as_from g = [p] -> add_part xs p = Some xs' ->
    Forall2 table_state xs ts -> NoDup (flat_map names_of xs') ->
    forall q, s_tabs q = ts -> exists ts', sel_step (pure_world (with_be E bo)) q op = (with_tabs q ts', Ok tt) /\ Forall2 table_state xs' ts'.
  Proof.
    intros E bo op g xs xs' ts p J Q A F N q T. destruct J; cbn [as_from nothing] in Q; try discriminate Q; injection Q as <-.
    - cbn [add_part] in A. injection A as <-. destruct (from_call (with_be E bo) a k ps xs ts H H0 H1 F N) as [ts' [S F']].
      exists ts'. split; [|exact F']. cbn [sel_step]. rewrite T, S. reflexivity.
    - cbn [add_part] in A. injection A as <-.
      assert (K : keys_ok (filter truthy [VSeq KTuple [t; a]]) []) by (split; [constructor|intros i X; discriminate X]).
      assert (AA : alias_args (filter truthy [VSeq KTuple [t; a]]) [] [(t, a)]).
      { cbn [filter truthy is_nilb negb]. apply (aa_items _ [(t, a)] [] []); [intros i X; discriminate X| |].
        - constructor; [|constructor]. left. exists [t; a]. split; [now right|constructor].
        - split; constructor. }
      destruct (from_call (with_be E bo) _ _ _ xs ts K AA (Forall_cons _ H (Forall_nil _)) F N) as [ts' [S F']].
      exists ts'. split; [|exact F']. cbn [sel_step]. rewrite T, S. reflexivity.
    - cbn [add_part] in A. destruct xs as [|x xs _] using rev_ind; [discriminate|]. rewrite change_last_snoc in A. injection A as <-.
      apply Forall2_app_inv_l in F. destruct F as [ts0 [ts1 [F [F1 F2]]]]. inversion F1 as [|? t0 ? ? S F3]; subst. inversion F3; subst. clear F1 F3.
      destruct t0 as [n0 a0 js0]. exists (ts0 ++ [MkTable n0 a0 (js0 ++ [MkJoin ty t a []])]). split.
      + cbn [sel_step]. rewrite T.
        assert (X : tables_join (pure_world (with_be E bo)) ty (ts0 ++ [MkTable n0 a0 js0]) arg = (ts0 ++ [MkTable n0 a0 (js0 ++ [MkJoin ty t a []])], Ok tt)).
        { apply PfLists.join_call. split; [intros X; rewrite (H1 X); reflexivity|]. exists t, a. split; [exact H|]. split; [|reflexivity].
          destruct H0 as [[s [S0 _]] A0]. cbn [fst snd] in *. subst t. split; [left; eauto|left]. destruct A0 as [-> |[u [-> _]]]; [now right|left; eauto]. }
        rewrite X. reflexivity.
      + apply Forall2_app; [exact F|]. constructor; [|constructor]. destruct S as [S1 [S2 [S3 S4]]]. split; [exact S1|]. split; [exact S2|]. split; [exact S3|].
        cbn [at_joins tb_joins]. apply Forall2_app; [exact S4|]. constructor; [|constructor].
        split; [reflexivity|]. split; [reflexivity|]. split; [reflexivity|]. split; [exact H0|]. split; [constructor|]. intros sv at_ _. reflexivity.
    - cbn [add_part] in A. destruct xs as [|x xs _] using rev_ind; [discriminate|]. rewrite change_last_snoc in A. destruct x as [n0 a0 js]. cbn [at_joins at_table at_alias] in A.
      destruct js as [|j js _] using rev_ind; [discriminate|]. rewrite change_last_snoc in A. injection A as <-.
      apply Forall2_app_inv_l in F. destruct F as [ts0 [ts1 [F [F1 F2]]]]. inversion F1 as [|? t0 ? ? S F3]; subst. inversion F3; subst. clear F1 F3.
      destruct t0 as [n1 a1 js1]. destruct S as [S1 [S2 [S3 S4]]]. cbn [at_table at_alias at_joins tb_name tb_alias tb_joins] in S1, S2, S3, S4. subst n1 a1.
      apply Forall2_app_inv_l in S4. destruct S4 as [js0 [js2 [G [G1 ->]]]]. inversion G1 as [|? j0 ? ? S G3]; subst. inversion G3; subst. clear G1 G3.
      destruct j0 as [ty n' a' ons]. destruct S as [T1 [T2 [T3 [T4 [T5 T6]]]]]. cbn [j_type j_name j_alias j_ons] in T1, T2, T3, T5, T6.
      destruct (on_effect b (with_be E bo) a k ps ons H H0 H1 H2 T5) as [ons' [C [D M]]].
      exists (ts0 ++ [MkTable n0 a0 (js0 ++ [MkJoin ty n' a' ons'])]). split.
      + cbn [sel_step]. rewrite T, PfLists.on_call, C. reflexivity.
      + apply Forall2_app; [exact F|]. constructor; [|constructor]. split; [reflexivity|]. split; [reflexivity|]. split; [exact S3|].
        cbn [at_joins tb_joins]. apply Forall2_app; [exact G|]. constructor; [|constructor].
        split; [exact T1|]. split; [exact T2|]. split; [exact T3|]. split; [exact T4|]. split; [exact D|].
        intros sv at_ MI. cbn [aj_on j_ons]. rewrite (M sv at_ MI), (T6 sv at_ MI). unfold on_hold. now rewrite forallb_app.
  Qed.
End Tables.

(** ** Equal trees give equal rows *)
Definition same_join (x y : joinkind * path * path * (combination -> bool)) : Prop :=
  fst x = fst y /\ forall c, snd x c = snd y c.
Definition same_tree (s t : tree) : Prop := tr_table s = tr_table t /\ tr_name s = tr_name t /\ Forall2 same_join (tr_joins s) (tr_joins t).
Lemma existsb_same : forall A (f g : A -> bool) l, (forall x, f x = g x) -> existsb f l = existsb g l.
Proof. intros A f g l H. induction l as [|x l IH]; [reflexivity|]. cbn [existsb]. now rewrite H, IH. Qed.
Lemma combine_same : forall kind names f g n cs rows, (forall c, f c = g c) -> combine kind names f n cs rows = combine kind names g n cs rows.
Proof.
  intros kind names f g n cs rows H. unfold combine. rewrite (filter_ext f g H).
  rewrite (filter_ext (fun c => negb (existsb (fun r => f (c ++ [(n, r)])) rows)) (fun c => negb (existsb (fun r => g (c ++ [(n, r)])) rows)))
    by (intros c; f_equal; now apply existsb_same).
  rewrite (filter_ext (fun r => negb (existsb (fun c => f (c ++ [(n, r)])) cs)) (fun r => negb (existsb (fun c => g (c ++ [(n, r)])) cs)))
    by (intros r; f_equal; now apply existsb_same).
  reflexivity.
Qed.
Lemma joins_same : forall db js ks, Forall2 same_join js ks -> forall names cs, join_all db names cs js = join_all db names cs ks.
Proof.
  intros db js ks F. induction F as [|[[[k t] n] f] [[[k' t'] n'] g] js ks [S1 S2] F IH]; intros names cs; [reflexivity|].
  cbn [fst snd] in *. injection S1 as -> -> ->. cbn [join_all]. rewrite (combine_same _ _ f g _ _ _ S2). apply IH.
Qed.
Lemma rows_same : forall db ss ts, Forall2 same_tree ss ts -> all_rows db ss = all_rows db ts.
Proof.
  intros db ss ts F. induction F as [|s t ss ts [S1 [S2 S3]] F IH]; [reflexivity|]. cbn [all_rows]. rewrite IH. unfold tree_rows.
  rewrite S1, S2, (joins_same db _ _ S3). reflexivity.
Qed.

Section Final.
  Context (b : backend) (E : env).
  Let call_of := fun (bo : backend * selop) g => join_call b (supper E) (fst bo) (snd bo) g.
  Lemma parts_snoc : forall ps p, tables_asked (ps ++ p) = fold_left (fun o p => match o with Some ts => add_part ts p | None => None end) p (tables_asked ps).
  Proof. intros. unfold tables_asked. apply fold_left_app. Qed.
  Lemma one_part : forall up bo op g, join_call b up bo op g -> as_from g = [] \/ exists p, as_from g = [p].
  Proof. intros up bo op g J. destruct J; cbn [as_from nothing]; eauto. Qed.
  Lemma join_inv : forall H given srcs, Forall2 call_of H given ->
    tables_asked (flat_map as_from given) = Some srcs -> NoDup (flat_map names_of srcs) ->
    let h := program E H in
    let q := calls sel_step empty_select h in
    all_succeed sel_step empty_select h /\ no_groups q /\ Forall2 (table_state b) srcs (s_tabs q) /\
    Forall (where_cond b) (s_where q) /\
    (forall sv at_, mirrored sv -> chosen b sv at_ (s_where q) = where_holds b sv at_ (flat_map as_where given)) /\
    (Forall PfLists.col_data (s_cols q) /\ first_occurrences (flat_map as_columns given) (s_cols q)) /\
    (Forall (fun o => name_arg (fst o)) (s_order q) /\ SpecLists.ordered_list (supper E) (flat_map as_order given) (s_order q)).
  Proof.
    intros H given srcs F TA ND. cbv zeta.
    assert (HC : forall H given, Forall2 call_of H given ->
      Forall PfLists.col_data (s_cols (calls sel_step empty_select (program E H))) /\
      first_occurrences (flat_map as_columns given) (s_cols (calls sel_step empty_select (program E H)))).
    { clear. intros H given F. rewrite flat_map_concat_map. apply PfLists.columns_history.
      - unfold SpecLists.columns_asked. induction F as [|[bo op] g H given P F IH]; [constructor|]. cbn [map snd]. constructor; [|exact IH].
        unfold call_of in P. cbn [fst snd] in P. destruct P as [a k ps P1 P2 P3| | | | | | | | |]; try reflexivity. split; [exact P1|]. cbn [as_columns].
        apply (req_items _ _ _ ps); [exact P2|].
        clear -P3. induction P3 as [|p l Q L IH]; [constructor|]. constructor; [|exact IH]. destruct (plain_data b p Q). split; left; assumption.
      - unfold data_items. induction F as [|[bo op] g H given P F IH]; [constructor|]. cbn [map List.concat]. apply Forall_app. split; [|exact IH].
        unfold call_of in P. cbn [fst snd] in P. destruct P as [a k ps P1 P2 P3| | | | | | | | |]; cbn [as_columns nothing]; try constructor.
        eapply Forall_impl; [|exact P3]. intros p [[c [-> _]] [A|[u [A _]]]]; rewrite A; split; reflexivity. }
    assert (HO : forall H given, Forall2 call_of H given ->
      Forall (fun o => name_arg (fst o)) (s_order (calls sel_step empty_select (program E H))) /\
      SpecLists.ordered_list (supper E) (flat_map as_order given) (s_order (calls sel_step empty_select (program E H)))).
    { clear. intros H given F. rewrite flat_map_concat_map. apply PfLists.order_history.
      unfold SpecLists.order_asked. induction F as [|[bo op] g H given P F IH]; [constructor|]. cbn [map snd]. constructor; [|exact IH].
      unfold call_of in P. cbn [fst snd] in P. destruct P as [| | | | | |a k ps K A Q| | |]; try reflexivity.
      split; [exact K|]. right. exists ps. split; [exact A|]. cbn [as_order]. split.
      - eapply Forall_impl; [|exact Q]. intros p [[c [C _]] _]. left. eauto.
      - clear -Q. induction Q as [|p l [_ Q] L IH]; constructor; assumption. }
    assert (MM : all_succeed sel_step empty_select (program E H) /\ no_groups (calls sel_step empty_select (program E H)) /\
      Forall2 (table_state b) srcs (s_tabs (calls sel_step empty_select (program E H))) /\
      Forall (where_cond b) (s_where (calls sel_step empty_select (program E H))) /\
      forall sv at_, mirrored sv -> chosen b sv at_ (s_where (calls sel_step empty_select (program E H))) = where_holds b sv at_ (flat_map as_where given)).
    { revert given srcs F TA ND. induction H as [|[bo op] H IH] using rev_ind; intros given srcs F TA ND.
      - inversion F; subst. cbn in TA. injection TA as <-. cbn. repeat split; auto; constructor.
      - apply PfLists.Forall2_snoc in F. destruct F as [given' [g [-> [F P]]]]. unfold call_of in P. cbn [fst snd] in P.
        rewrite !flat_map_app in *. cbn [flat_map] in *. rewrite !app_nil_r in *. rewrite parts_snoc in TA.
        destruct (tables_asked (flat_map as_from given')) as [srcs'|] eqn:TA'.
        2: { exfalso. clear -TA. induction (as_from g); [discriminate|auto]. }
        assert (ND' : NoDup (flat_map names_of srcs')).
        { destruct (one_part _ _ _ _ P) as [Z|[p Z]]; rewrite Z in TA; cbn [fold_left] in TA; [injection TA as <-; exact ND|].
          destruct (names_grow _ _ _ TA) as [more M]. rewrite M in ND. clear -ND. revert ND. generalize (flat_map names_of srcs'). intros l N.
          induction l as [|x l IHl]; [constructor|]. inversion N as [|? ? N1 N2]; subst. constructor; [|now apply IHl]. intros I. apply N1. apply in_or_app. now left. }
        specialize (IH given' srcs' F TA' ND'). destruct (HC H given' F) as [C1 _], (HO H given' F) as [O1 _].
        rewrite PfLists.program_snoc, calls_snoc.
        set (q := calls sel_step empty_select (program E H)) in *. destruct IH as [A [NG [T [W S]]]].
        assert (K : exists q', sel_step (pure_world (with_be E bo)) q op = (q', Ok tt) /\ no_groups q' /\
          Forall2 (table_state b) srcs (s_tabs q') /\ Forall (where_cond b) (s_where q') /\
          forall sv at_, mirrored sv -> chosen b sv at_ (s_where q') = chosen b sv at_ (s_where q) && where_holds b sv at_ (as_where g)).
        { assert (NW : as_where g = [] -> forall sv at_, mirrored sv -> chosen b sv at_ (s_where q) = chosen b sv at_ (s_where q) && where_holds b sv at_ (as_where g))
            by (intros X sv at_ _; rewrite X; symmetry; apply andb_true_r).
          destruct (one_part _ _ _ _ P) as [Z|[p Z]].
          2: { rewrite Z in TA. cbn [fold_left] in TA. destruct (part_step b E bo op g srcs' srcs (s_tabs q) p P Z TA T ND q eq_refl) as [ts' [R1 R2]].
               exists (with_tabs q ts'). split; [exact R1|]. split; [exact NG|]. split; [exact R2|]. split; [exact W|]. apply NW.
               clear -P Z. destruct P; try reflexivity. discriminate Z. }
          rewrite Z in TA. cbn [fold_left] in TA. injection TA as <-. destruct P; try discriminate Z; cbn [as_where nothing] in NW |- *.
          - pose proof (columns_call_ok b (with_be E bo) a k ps (s_cols q) H0 H1 H2 C1) as X.
            exists (with_cols q (fst (columns_add (pure_world (with_be E bo)) (s_cols q) a k))). split; [cbn [sel_step lift1]; rewrite <- X; reflexivity|].
            split; [exact NG|]. split; [exact T|]. split; [exact W|]. exact (NW eq_refl).
          - destruct (where_effect b (with_be E bo) a k ps (s_where q) H0 W) as [wh' [Q [W' S']]].
            exists (with_where q wh'). split; [cbn [sel_step lift1]; rewrite Q; reflexivity|]. split; [exact NG|]. split; [exact T|]. split; [exact W'|exact S'].
          - pose proof (orders_call_ok b (with_be E bo) a k ps (s_order q) H0 H1 H2 O1) as X.
            exists (with_order q (fst (orders_add (pure_world (with_be E bo)) (s_order q) a k))). split; [cbn [sel_step lift1]; rewrite <- X; reflexivity|].
            split; [exact NG|]. split; [exact T|]. split; [exact W|]. exact (NW eq_refl).
          - apply (limit_rejects (pure_world (with_be E bo)) q l o) in H0.
            exists (fst (sel_step (pure_world (with_be E bo)) q (SLimit l o))). split; [rewrite <- H0; apply surjective_pairing|].
            split; [exact NG|]. split; [exact T|]. split; [exact W|]. exact (NW eq_refl).
          - apply (offset_rejects (pure_world (with_be E bo)) q o) in H0.
            exists (fst (sel_step (pure_world (with_be E bo)) q (SOffset o))). split; [rewrite <- H0; apply surjective_pairing|].
            split; [exact NG|]. split; [exact T|]. split; [exact W|]. exact (NW eq_refl).
          - eexists. split; [reflexivity|]. split; [exact NG|]. split; [exact T|]. split; [exact W|]. exact (NW eq_refl). }
        destruct K as [q' [Q [NG' [T' [W' S']]]]]. split; [apply succeed_snoc; [exact A|]; fold q; now rewrite Q|].
        rewrite Q. cbn [fst]. split; [exact NG'|]. split; [exact T'|]. split; [exact W'|].
        intros sv at_ MI. rewrite (S' sv at_ MI), (S sv at_ MI). unfold where_holds. now rewrite forallb_app. }
    destruct MM as [M1 [M2 [M3 [M4 M5]]]]. repeat (split; [assumption|]). split; [now apply HC|now apply HO].
  Qed.

  Lemma val_name_dec : forall x y, plain_name x -> plain_name y -> x = y \/ x <> y.
  Proof.
    intros x y X Y. destruct x; try contradiction; destruct y; try contradiction; try (now left); try (right; discriminate).
    destruct (seqb s s0) eqn:Q; [left; apply seqb_eq in Q; congruence|right; intros Z; injection Z as ->; now rewrite seqb_refl in Q].
  Qed.
  (** The joins of one table are kept apart. *)
  Lemma state_apart : forall xs js, Forall2 (join_state b) xs js -> NoDup (map (fun j => known_as (aj_table j) (aj_alias j)) xs) -> ForallOrdPairs apart js.
  Proof.
    intros xs js F. induction F as [|x j xs js S F IH]; intros N; [constructor|]. cbn [map] in N. inversion N as [|? ? N1 N2]; subst. constructor; [|now apply IH].
    assert (PL : forall x j, join_state b x j -> plain_name (j_name j) /\ plain_name (j_alias j)).
    { intros y i [_ [T2 [T3 [[[s [T4 _]] T5] _]]]]. cbn [fst snd] in *. rewrite <- T2, <- T3, T4. split; [exact Logic.I|]. destruct T5 as [-> |[u [-> _]]]; exact Logic.I. }
    clear IH N N2. induction F as [|y i xs js Q F IH]; [constructor|]. constructor; [|apply IH; intros I; apply N1; now right].
    destruct (PL x j S) as [A1 A2], (PL y i Q) as [A3 A4]. repeat (split; [assumption|]).
    destruct S as [_ [S2 [S3 _]]], Q as [_ [Q2 [Q3 _]]]. cbn [map In] in N1. rewrite S2, S3, Q2, Q3 in N1.
    destruct (val_name_dec (j_name j) (j_name i) A1 A3) as [X|X]; [|now left]. right. intros Y. apply N1. left. now rewrite X, Y.
  Qed.
  Lemma state_fine : forall x t, table_state b x t -> NoDup (names_of x) -> table_fine b t.
  Proof.
    intros x t [A [B [[[n [C1 C2]] D] F]]] N. cbn [fst snd] in *. unfold table_fine. rewrite <- A, <- B, C1.
    split; [exact C2|]. split; [destruct D as [-> |[a [-> D]]]; [exact Logic.I|exact D]|]. split.
    - clear -F. induction F as [|y j xs js [_ [S2 [S3 [[[m [S4 S5]] S6] [S7 _]]]]] F IH]; [constructor|]. constructor; [|exact IH]. cbn [fst snd] in *.
      unfold join_fine. rewrite <- S2, <- S3, S4. split; [exact S5|]. split; [destruct S6 as [-> |[a [-> S6]]]; [exact Logic.I|exact S6]|].
      eapply Forall_impl; [|exact S7]. apply on_cond_ok.
    - right. unfold names_of in N. inversion N; subst. eapply state_apart; eauto.
  Qed.
  Lemma kept_chosen : forall sv at_ l o, says_conditions b l o -> kept (compare sv) (val_at sv at_) o = chosen b sv at_ l.
  Proof.
    intros sv at_ l o S. destruct l as [|x l], o as [e|]; try contradiction; [reflexivity|]. cbn [says_conditions] in S. unfold kept, chosen.
    now rewrite S.
  Qed.
  Lemma known_name : forall t a n o p, plain_table b (t, a) -> says_alias a o -> path_of t = Some p -> n = p -> name_or o n = known_as t a /\ p = segments t.
  Proof.
    intros t a n o p [[s [C _]] D] S P ->. cbn [fst snd] in *. subst t. cbn in P. injection P as <-.
    destruct D as [-> |[u [-> _]]]; cbn in S; [subst o; split; reflexivity|destruct S as [_ ->]; split; reflexivity].
  Qed.
  Lemma tree_same : forall sv find x t s, mirrored sv -> table_state b x t -> says_table b t s -> same_tree (tree_of sv find s) (tree_asked b sv find x).
  Proof.
    intros sv find x t s MI [A [B [P F]]] S. inversion S as [n a js p o l S1 S2 S3]; subst. cbn [tb_name tb_alias tb_joins] in *. subst n a.
    destruct (known_name _ _ p o p P S2 S1 eq_refl) as [K1 K2].
    split; [exact K2|]. split; [exact K1|]. cbn [tree_of tree_asked tr_joins sc_joins]. clear -F S3 MI. revert l S3.
    induction F as [|y j xs js Q F IH]; intros l S; inversion S as [|? i ? l' T1 T2]; subst; cbn [map]; [constructor|]. constructor; [|now apply IH].
    destruct Q as [Q1 [Q2 [Q3 [Q4 [_ Q5]]]]]. inversion T1 as [ty n a ons p o e U1 U2 U3]; subst. cbn [j_type j_name j_alias j_ons] in *. subst n a.
    destruct (known_name _ _ p o p Q4 U2 U1 eq_refl) as [K1 K2]. split; cbn [fst snd jn_kind jn_table jn_alias jn_on].
    - now rewrite K1, K2, Q1.
    - intros c. rewrite <- (Q5 sv (find c) MI). apply (kept_chosen sv (find c) ons e U3).
  Qed.
  Lemma shown_in_same : forall sv find c cols cols', Forall2 says_column cols cols' -> Forall str_alias cols ->
    map (show_in sv find c) cols' = map (column_shown find c) cols.
  Proof.
    intros sv find c cols cols' F. induction F as [|[x a] [e o] cols cols' S F IH]; intros P; [reflexivity|]. inversion P as [|? ? [[n C] A] P']; subst.
    cbn [map fst snd] in *. rewrite (IH P'). f_equal. inversion S as [? ? ? ? X Y]; subst. cbn in X. injection X as <-.
    unfold show_in, column_shown. cbn [fst snd segments]. destruct A as [-> |[a' ->]]; cbn in Y; [subst o|destruct Y as [_ ->]]; reflexivity.
  Qed.
  Lemma keys_in_same : forall sv find ord ord', Forall2 says_order ord ord' -> Forall (fun p => exists c, fst p = VStr c) ord ->
    map (fun k => (fun c => value_in sv find c (fst k), snd k)) ord' = map (order_key find) ord.
  Proof.
    intros sv find ord ord' F. induction F as [|[x d] [e u] ord ord' S F IH]; intros P; [reflexivity|]. inversion P as [|? ? [c C] P']; subst.
    cbn [map fst snd] in *. subst x. rewrite (IH P'). f_equal. inversion S as [? ? X|? ? X]; subst; cbn in X; injection X as <-; reflexivity.
  Qed.

  Lemma join_program : forall H given srcs, Forall2 call_of H given ->
    tables_asked (flat_map as_from given) = Some srcs -> NoDup (flat_map names_of srcs) ->
    bounded (wanted_limit (map snd H)) -> bounded (wanted_offset (map snd H)) ->
    (forall c a k v, In (c, VStr a) (flat_map as_columns given) -> In (VStr k, v) (flat_map as_order given) -> name_segments a <> name_segments k) ->
    let h := program E H in
    let q := calls sel_step empty_select h in
    all_succeed sel_step empty_select h /\
    exists s st cols order, text (with_be E b) (VSelect q) = Ok s /\ understood (dialect_of b) s = Some st /\
      first_occurrences (flat_map as_columns given) cols /\ SpecLists.ordered_list (supper E) (flat_map as_order given) order /\
      forall sv find le db out, mirrored sv -> (join_answers sv find le db st out <->
        asked_answers b sv find le db (columns_asked cols) srcs (flat_map as_where given) order
          (wanted_limit (map snd H)) (wanted_offset (map snd H)) out).
  Proof.
    intros H given srcs F TA ND BL BO NA h q.
    destruct (join_inv H given srcs F TA ND) as [A [[N1 [N2 [N3 N4]]] [T [W [S [[C1 C2] [O1 O2]]]]]]]. fold h in A. fold h q in N1, N2, N3, N4, T, W, S, C1, C2, O1, O2.
    split; [exact A|].
    assert (PC : Forall (plain_column b) (s_cols q)).
    { assert (X : Forall (plain_column b) (flat_map as_columns given)).
      { clear -F. induction F as [|[bo op] g H given P F IH]; [constructor|]. cbn [flat_map]. apply Forall_app. split; [|exact IH].
        unfold call_of in P. cbn [fst snd] in P. destruct P; cbn [as_columns nothing]; try constructor. assumption. }
      rewrite Forall_forall in X |- *. intros p J. apply X. now apply (PfLists.fo_in _ _ _ C2). }
    assert (PO : Forall (fun p => exists c, fst p = VStr c /\ good_name (quote_of b) c) (s_order q)).
    { assert (X : Forall (fun p => exists c, fst p = VStr c /\ good_name (quote_of b) c) (flat_map as_order given)).
      { clear -F. induction F as [|[bo op] g H given P F IH]; [constructor|]. cbn [flat_map]. apply Forall_app. split; [|exact IH].
        unfold call_of in P. cbn [fst snd] in P. destruct P; cbn [as_order nothing]; try constructor. eapply Forall_impl; [|eassumption]. intros p [Y _]. exact Y. }
      rewrite Forall_forall in X |- *. intros [c d] J. destruct O2 as [O2 _].
      assert (J' : In c (map fst (flat_map as_order given))) by (apply (PfLists.fo_in _ _ _ O2); apply in_map_iff; exists (c, d); auto).
      apply in_map_iff in J'. destruct J' as [p [<- J']]. exact (X p J'). }
    assert (TF : Forall (table_fine b) (s_tabs q)).
    { clear -T ND. induction T as [|x t xs ts Q T IH]; [constructor|]. cbn [flat_map] in ND.
      assert (NX : NoDup (names_of x) /\ NoDup (flat_map names_of xs)).
      { revert ND. generalize (names_of x) as l. generalize (flat_map names_of xs) as m. clear. intros m l. induction l as [|y l IH]; intros N; [split; [constructor|exact N]|].
        inversion N as [|? ? M1 M2]; subst. destruct (IH M2) as [U V]. split; [|exact V]. constructor; [|exact U]. intros J. apply M1. apply in_or_app. now left. }
      constructor; [apply (state_fine x t Q); tauto|apply IH; tauto]. }
    destruct (select_statement (with_be E b) q) as [s [st [X1 [X2 X3]]]].
    { cbn [with_be e_be]. split; [|split; [|split; [|split; [|split; [|split]]]]].
      - eapply Forall_impl; [|exact PC]. intros p [[c [-> Gc]] Al]. split; [exact Gc|]. destruct Al as [-> |[a [-> Ga]]]; [exact Logic.I|exact Ga].
      - exact TF.
      - eapply Forall_impl; [|exact W]. apply where_cond_ok.
      - rewrite N2. constructor.
      - rewrite N3. constructor.
      - eapply Forall_impl; [|exact PO]. intros p [c [-> Gc]]. exact Gc.
      - exact N4. }
    cbn [with_be e_be] in X2, X3.
    exists s, st, (s_cols q), (s_order q). split; [exact X1|]. split; [exact X2|]. split; [exact C2|]. split; [exact O2|].
    assert (L : s_limit q = MkLimits (wanted_limit (map snd H)) (wanted_offset (map snd H))).
    { unfold q. rewrite limit_state. unfold h, program. rewrite map_map. reflexivity. }
    clearbody q. destruct q as [op cols tabs wh gr ha ord lims out fu]. cbn [s_opts s_cols s_tabs s_where s_group s_having s_order s_limit s_out] in *.
    subst op gr ha lims.
    inversion X3 as [? ? ? ? ? ? ? ? ? ? ? op' cols' tabs' wh' gr' ha' ord' Y1 Y2 Y3 Y4 Y5 Y6 Y7]. clear X3. subst.
    cbn in Y1. apply Permutation_sym, Permutation_nil in Y1. subst op'.
    inversion Y5; subst. destruct ha'; [contradiction Y6|].
    assert (SA : Forall str_alias (columns_asked cols)).
    { destruct cols as [|p cols]; [constructor; [|constructor]; split; [eexists; reflexivity|now left]|]. cbn [columns_asked].
      eapply Forall_impl; [|exact PC]. intros p' [[c [C _]] Al]. split; [eauto|]. destruct Al as [Al|[a [Al _]]]; eauto. }
    assert (SO : Forall (fun p => exists c, fst p = VStr c) ord) by (eapply Forall_impl; [|exact PO]; intros p [c [C _]]; eauto).
    assert (K : forall sv find, mirrored sv -> forall c, kept (compare sv) (value_in sv find c) wh' = where_holds b sv (find c) (flat_map as_where given)).
    { intros sv find MI c. rewrite <- (S sv (find c) MI). apply (kept_chosen sv (find c) wh wh' Y4). }
    assert (R : forall sv find db, mirrored sv -> all_rows db (map (tree_of sv find) tabs') = all_rows db (map (tree_asked b sv find) srcs)).
    { intros sv find db MI. apply rows_same. clear -T Y3 MI. revert tabs' Y3. induction T as [|x t xs ts Q T IH]; intros tabs' Y; inversion Y as [|? s ? ss Y1 Y2]; subst; cbn [map]; [constructor|].
      constructor; [|now apply IH]. eapply tree_same; eauto. }
    assert (NA' : forall a, In (Some a) (map snd cols') -> ~ In (EColumn a) (map fst ord')).
    { intros a J1 J2. apply in_map_iff in J1. destruct J1 as [[e o] [Q1 J1]]. cbn [snd] in Q1. subst o.
      apply in_map_iff in J2. destruct J2 as [[e2 u] [Q2 J2]]. cbn [fst] in Q2. subst e2.
      assert (Z : exists c x, In (c, VStr x) cols /\ name_segments x = a).
      { clear -Y2 J1 SA. assert (Q : exists c x, In (c, VStr x) (columns_asked cols) /\ name_segments x = a).
        { revert J1 SA. induction Y2 as [|[x al] c' l l' Q F IH]; intros J1 SA; [destruct J1|]. inversion SA as [|? ? [_ S1] S2]; subst. destruct J1 as [-> |J1].
          - inversion Q as [? ? ? ? U V]; subst. cbn [snd] in S1. destruct S1 as [-> |[y ->]]; [discriminate V|]. cbn in V. destruct V as [_ V]. injection V as ->.
            exists x, y. split; [now left|reflexivity].
          - destruct (IH J1 S2) as [c [y [U V]]]. exists c, y. split; [now right|exact V]. }
        destruct Q as [c [x [Q1 Q2]]]. exists c, x. split; [|exact Q2]. destruct cols; [|exact Q1]. destruct Q1 as [Q1|[]]. discriminate Q1. }
      destruct Z as [c [x [J3 <-]]].
      assert (Z : exists k d, In (VStr k, d) ord /\ name_segments k = name_segments x).
      { clear -Y7 J2 SO. revert J2 SO. induction Y7 as [|[y d] o' l l' Q F IH]; intros J2 SO; [destruct J2|]. inversion SO as [|? ? [k S1] S2]; subst. destruct J2 as [-> |J2].
        - cbn [fst] in S1. subst y. exists k, d. split; [now left|]. inversion Q as [? ? U|? ? U]; subst; cbn in U; now injection U.
        - destruct (IH J2 S2) as [k2 [d2 [U V]]]. exists k2, d2. split; [now right|exact V]. }
      destruct Z as [k [d [J4 Z]]].
      assert (J5 : In (VStr k) (map fst (flat_map as_order given))).
      { destruct O2 as [O2 _]. apply (PfLists.fo_in _ _ _ O2). apply in_map_iff. exists (VStr k, d). auto. }
      apply in_map_iff in J5. destruct J5 as [[k' v] [Q5 J5]]. cbn [fst] in Q5. subst k'.
      apply (NA c x k v); [now apply (PfLists.fo_in _ _ _ C2)|exact J5|now symmetry]. }
    intros sv find le db res MI. specialize (K sv find MI). specialize (R sv find db MI). split; intros J.
    - inversion J as [? ? ? ? ? ? ? rows B1 B2 B3 B4 B5]; subst.
      rewrite (keys_in_same sv find ord ord' Y7 SO) in B5. rewrite R, (filter_ext _ _ K) in B4.
      rewrite (map_ext _ _ (fun c => shown_in_same sv find c _ _ Y2 SA)). apply aans; assumption.
    - inversion J as [rows B4 B5]; subst. rewrite <- (map_ext _ _ (fun c => shown_in_same sv find c _ _ Y2 SA)).
      apply jans; auto.
      + rewrite R, (filter_ext _ _ K). exact B4.
      + rewrite (keys_in_same sv find ord ord' Y7 SO). exact B5.
  Qed.
End Final.
