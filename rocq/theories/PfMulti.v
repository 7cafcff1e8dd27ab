(** Proofs about delete and update programs over several tables: C90, C91. *)
From Coq Require Import Lia.
From Verif Require Import Base BaseFacts NumFmt Value Backend Eq Render RenderFacts ParseArgs Build Queries History
  SpecLex SpecRef SpecLogic SpecConds SpecHistory SpecArgs SpecErrors SpecWhole SpecSql SpecServer SpecProgram SpecJoin SpecMulti
  PfArgs PfErrors PfAccept PfHistories PfDedupe PfLiterals PfSqlExec PfServer PfProgram PfJoin.
Open Scope N_scope.

Section Steps.
  Context (b : backend).
  (** ** The tables *)
  Lemma join_effect : forall E ty arg t a xs xs' ts, SpecLists.join_arg arg t a -> plain_table b (t, a) -> ty <> JFull ->
    add_part xs (PJoin (kind_of_join ty) t a) = Some xs' -> Forall2 (table_state b) xs ts -> NoDup (flat_map names_of xs') ->
    exists ts', tables_join (pure_world E) ty ts arg = (ts', Ok tt) /\ Forall2 (table_state b) xs' ts'.
  Proof.
    intros E ty arg t a xs xs' ts J P NF A F N.
    destruct (part_step b E (e_be E) (SJoin ty arg) (MkAsks [] [PJoin (kind_of_join ty) t a] [] []) xs xs' ts _
      (jc_join b (supper E) (e_be E) ty arg t a J P (fun X => False_ind _ (NF X))) eq_refl A F N (with_tabs empty_select ts) eq_refl) as [ts' [S F']].
    exists ts'. split; [|exact F']. assert (Q : with_be E (e_be E) = E) by (now destruct E). rewrite Q in S.
    cbn [sel_step s_tabs with_tabs empty_select] in S. destruct (tables_join (pure_world E) ty ts arg) as [x o]. cbn [lift1] in S. injection S as -> ->. reflexivity.
  Qed.
  Lemma on_part_effect : forall E a k ps xs xs' ts, keys_ok a k -> some_data a -> pair_args a k ps -> Forall (on_pair b) ps ->
    add_part xs (POn ps) = Some xs' -> Forall2 (table_state b) xs ts -> NoDup (flat_map names_of xs') ->
    exists ts', tables_on (pure_world E) ts a k = (ts', Ok tt) /\ Forall2 (table_state b) xs' ts'.
  Proof.
    intros E a k ps xs xs' ts K D PA P A F N.
    destruct (part_step b E (e_be E) (SOn a k) (MkAsks [] [POn ps] [] []) xs xs' ts _
      (jc_on b (supper E) (e_be E) a k ps K D PA P) eq_refl A F N (with_tabs empty_select ts) eq_refl) as [ts' [S F']].
    exists ts'. split; [|exact F']. assert (Q : with_be E (e_be E) = E) by (now destruct E). rewrite Q in S.
    cbn [sel_step s_tabs with_tabs empty_select] in S. destruct (tables_on (pure_world E) ts a k) as [x o]. cbn [lift1] in S. injection S as -> ->. reflexivity.
  Qed.
  Lemma from_effect : forall E a k ps xs xs' ts, keys_ok (filter truthy a) k -> alias_args (filter truthy a) k ps -> Forall (plain_table b) ps ->
    add_part xs (PTables ps) = Some xs' -> Forall2 (table_state b) xs ts -> NoDup (flat_map names_of xs') ->
    exists ts', tables_set (pure_world E) ts a k = (ts', Ok tt) /\ Forall2 (table_state b) xs' ts'.
  Proof. intros E a k ps xs xs' ts K A P Q F N. cbn [add_part] in Q. injection Q as <-. now apply (from_call b E a k ps xs ts). Qed.
  Lemma from_table_effect : forall E t a xs xs' ts, plain_table b (t, a) ->
    add_part xs (PTables [(t, a)]) = Some xs' -> Forall2 (table_state b) xs ts -> NoDup (flat_map names_of xs') ->
    exists ts', tables_set (pure_world E) ts [VSeq KTuple [t; a]] [] = (ts', Ok tt) /\ Forall2 (table_state b) xs' ts'.
  Proof.
    intros E t a xs xs' ts P Q F N. apply (from_effect E _ _ [(t, a)] xs xs' ts); auto.
    - split; [constructor|intros i X; discriminate X].
    - cbn [filter truthy is_nilb negb]. apply (aa_items _ [(t, a)] [] []); [intros i X; discriminate X| |].
      + constructor; [|constructor]. left. exists [t; a]. split; [now right|constructor].
      + split; constructor.
  Qed.
  (** ** The tables of delete(...) *)
  Definition target_state (ps : list (val * val)) (ts : list (table val)) : Prop :=
    Forall (fun t => exists n, t = MkTable (VStr n) VNone [] /\ good_name (quote_of b) n) ts /\
    forall n, In (MkTable (VStr n) VNone []) ts <-> In (VStr n, VNone) ps.
  Lemma target_loop : forall E ps full ts, Forall (plain_target b) ps -> target_state full ts ->
    exists ts', foldE (fun s p => commit s (do x <- mk_table (fst p) (snd p); append_unique (table_eq (py_eq E)) s (MkTable (fst x) (snd x) []))) ts ps = (ts', Ok tt) /\
      target_state (full ++ ps) ts'.
  Proof.
    intros E ps. induction ps as [|p ps IH]; intros full ts P S.
    - exists ts. rewrite app_nil_r. auto.
    - inversion P as [|? ? [[n [P1 G]] P2] P']; subst. destruct p as [x y]. cbn [fst snd] in *. subst x y. cbn [foldE fst snd].
      change (mk_table (VStr n) VNone) with (Ok (VStr n, VNone)). cbn [bind fst snd]. unfold append_unique at 1. destruct S as [S1 S2].
      assert (A : exists z, anyM (fun t => table_eq (py_eq E) t (MkTable (VStr n) VNone [])) ts = Ok z /\ (z = true -> In (MkTable (VStr n) VNone []) ts)).
      { clear -S1. induction S1 as [|t ts [m [-> _]] S1 [z [Z1 Z2]]]; [exists false; split; [reflexivity|discriminate]|]. cbn [anyM].
        assert (Q : table_eq (py_eq E) (MkTable (VStr m) VNone []) (MkTable (VStr n) VNone []) = Ok (seqb m n)).
        { unfold table_eq, py_eq. cbn [pyeq textual_eq]. destruct (seqb m n); reflexivity. }
        rewrite Q. destruct (seqb m n) eqn:M; cbn [ror].
        - apply seqb_eq in M. subst m. exists true. split; [reflexivity|]. intros _. now left.
        - exists z. split; [exact Z1|]. intros Z. right. exact (Z2 Z). }
      destruct A as [z [Z1 Z2]]. rewrite Z1. cbn [bind commit].
      replace (full ++ (VStr n, VNone) :: ps) with ((full ++ [(VStr n, VNone)]) ++ ps) by (now rewrite <- app_assoc).
      apply IH; [exact P'|]. destruct z.
      + split; [exact S1|]. intros m. rewrite in_app_iff. cbn [In]. split; [intros H; left; now apply S2|].
        intros [H|[H|[]]]; [now apply S2|]. injection H as <-. exact (Z2 eq_refl).
      + split; [apply Forall_app; split; [exact S1|constructor; [eauto|constructor]]|].
        intros m. rewrite !in_app_iff, S2. cbn [In]. split; (intros [H|[H|[]]]; [now left|right; left; congruence]).
  Qed.
  Lemma target_call : forall E a ps full ts, keys_ok (filter truthy a) [] -> alias_args (filter truthy a) [] ps -> Forall (plain_target b) ps ->
    target_state full ts -> exists ts', tables_set (pure_world E) ts a [] = (ts', Ok tt) /\ target_state (full ++ ps) ts'.
  Proof.
    intros E a ps full ts K A P S. unfold tables_set. destruct (parsed_names (pure_world E) (filter truthy a) [] K) as [X _]. rewrite (X ps A).
    change (exists ts', foldE (fun s it => let (n, a) := nth2 it in commit s (do x <- mk_table n a; append_unique (table_eq (py_eq E)) s (MkTable (fst x) (snd x) []))) ts (batches ps) = (ts', Ok tt) /\
      target_state (full ++ ps) ts').
    rewrite (foldE_batches _ (fun s n a => commit s (do x <- mk_table n a; append_unique (table_eq (py_eq E)) s (MkTable (fst x) (snd x) [])))).
    now apply target_loop.
  Qed.
  Lemma where_full : forall E a kw pairs ps, where_call b a kw pairs -> Forall (where_cond b) ps ->
    exists ps', conds_where (pure_world E) KWhere ps a kw = (ps', Ok tt) /\ Forall (where_cond b) ps' /\ (ps' = [] -> pairs = [] /\ ps = []) /\
      forall sv at_, mirrored sv -> chosen b sv at_ ps' = chosen b sv at_ ps && where_holds b sv at_ pairs.
  Proof.
    intros E a kw pairs ps W F. destruct (where_effect b E a kw pairs ps W F) as [p1 [A1 [A2 A3]]].
    destruct (where_call_effect b E a kw pairs ps W F) as [p2 [B1 [_ [B3 _]]]]. rewrite A1 in B1. injection B1 as <-. eauto 6.
  Qed.

  (** ** SET *)
  Lemma any_set : forall E out p, Forall (set_in_pair b) out -> set_in_pair b p ->
    exists z, anyM (fun q => py_eq E q (the_value p)) (map the_value out) = Ok z /\
      (z = true -> forall x, stores b [p] = [x] -> In x (stores b out)).
  Proof.
    intros E out p F P. induction F as [|q out Q F IH]; [exists false; split; [reflexivity|discriminate]|]. destruct IH as [z [A B]].
    cbn [map anyM]. destruct Q as [[c [Qc _]] Qv], P as [[d [Pd _]] Pv]. destruct q as [qc qv], p as [pc pv]. cbn [fst snd the_value] in *. subst qc pc.
    unfold py_eq at 1. unfold the_value at 1 2. cbn [pyeq textual_eq fst snd].
    destruct (seqb c d) eqn:S; cbn [rand].
    - apply seqb_eq in S. subst d. destruct (cell_total b (text E) qv pv Qv Pv) as [[] T]; rewrite T; cbn [ror].
      + exists true. split; [reflexivity|]. intros _ x. unfold stores. cbn [flat_map fst snd]. rewrite (cell_same b _ _ _ Qv Pv T).
        destruct (literal_of b pv); [|discriminate]. cbn [app]. intros X. injection X as <-. now left.
      + exists z. split; [exact A|]. intros Z x X.
        rewrite (stores_app b [(VStr c, qv)] out : stores b ((VStr c, qv) :: out) = _). apply in_or_app. right. exact (B Z x X).
    - cbn [ror]. exists z. split; [exact A|]. intros Z x X.
      rewrite (stores_app b [(VStr c, qv)] out : stores b ((VStr c, qv) :: out) = _). apply in_or_app. right. exact (B Z x X).
  Qed.
  Lemma set_in_loop : forall E pairs full out, Forall (set_in_pair b) pairs -> Forall (set_in_pair b) out -> deduped (stores b full) (stores b out) ->
    exists out', foldE (fun s p => commit s (do x <- mk_value (fst p) (snd p); append_unique (py_eq E) s x)) (map the_value out) pairs = (map the_value out', Ok tt) /\
      Forall (set_in_pair b) out' /\ deduped (stores b (full ++ pairs)) (stores b out').
  Proof.
    intros E pairs. induction pairs as [|p pairs IH]; intros full out P F D.
    - exists out. rewrite app_nil_r. auto.
    - inversion P as [|? ? Pp P']; subst.
      assert (M : mk_value (fst p) (snd p) = Ok (the_value p) /\ exists x, stores b [p] = [x]).
      { destruct Pp as [[c [C _]] V]. destruct p as [pc v]. cbn [fst snd] in *. subst pc. destruct (cell_literal b v V) as [_ [l L]]. split.
        - unfold mk_value. change (check_type [Value.TStr] (VStr c)) with true. cbn [negb].
          destruct V as [V|[m [-> _]]]; [destruct v; try contradiction|]; reflexivity.
        - unfold stores. cbn [flat_map fst snd]. rewrite L. eexists. reflexivity. }
      destruct M as [M [x X]]. destruct (any_set E out p F Pp) as [z [Z1 Z2]].
      cbn [foldE]. rewrite M. cbn [bind]. unfold append_unique at 1. rewrite Z1. cbn [bind commit].
      destruct (IH (full ++ [p]) (if z then out else out ++ [p]) P') as [out' [R [F' D']]].
      + destruct z; [exact F|]. apply Forall_app. auto.
      + rewrite stores_app, X. destruct z; [|rewrite stores_app, X; now constructor]. constructor; [exact D|]. eapply deduped_in; [exact D|]. exact (Z2 eq_refl x X).
      + exists out'. split; [|split; [exact F'|]].
        * destruct z; [exact R|]. rewrite map_app in R. exact R.
        * now rewrite <- app_assoc in D'.
  Qed.
  Lemma set_in_effect : forall E a k pairs full out, keys_ok a k -> some_data a -> pair_args a k pairs -> Forall (set_in_pair b) pairs ->
    Forall (set_in_pair b) out -> deduped (stores b full) (stores b out) ->
    exists out', values_set (pure_world E) (map the_value out) a k = (map the_value out', Ok tt) /\
      Forall (set_in_pair b) out' /\ deduped (stores b (full ++ pairs)) (stores b out').
  Proof.
    intros E a k pairs full out K D P G F X. rewrite (set_plainly _ _ _ _ D). destruct (parsed_pairs (pure_world E) a k K) as [A _].
    rewrite (A pairs P), (foldE_batches _ (fun s c0 v => commit s (do x <- mk_value c0 v; append_unique (py_eq E) s x))).
    exact (set_in_loop E pairs full out G F X).
  Qed.
End Steps.

(** ** Names of equal trees *)
Lemma tables_in_same : forall ss ts, Forall2 same_tree ss ts -> tables_in ss = tables_in ts.
Proof.
  intros ss ts F. induction F as [|s t ss ts [S1 [S2 S3]] F IH]; [reflexivity|]. unfold tables_in in *. cbn [flat_map]. rewrite IH, S1, S2. f_equal. f_equal.
  clear -S3. induction S3 as [|[[[k t'] n] f] [[[k' t''] n'] g] js ks [Q _] S3 IH]; [reflexivity|]. cbn [fst] in Q. injection Q as -> -> ->. cbn [map]. now rewrite IH.
Qed.
Lemma fine_tables : forall b xs ts, Forall2 (table_state b) xs ts -> NoDup (flat_map names_of xs) -> Forall (table_fine b) ts.
Proof.
  intros b xs ts T. induction T as [|x t xs ts Q T IH]; intros ND; [constructor|]. cbn [flat_map] in ND.
  assert (NX : NoDup (names_of x) /\ NoDup (flat_map names_of xs)).
  { revert ND. generalize (names_of x) as l. generalize (flat_map names_of xs) as m. clear. intros m l. induction l as [|y l IH]; intros N; [split; [constructor|exact N]|].
    inversion N as [|? ? M1 M2]; subst. destruct (IH M2) as [U V]. split; [|exact V]. constructor; [|exact U]. intros J. apply M1. apply in_or_app. now left. }
  constructor; [apply (state_fine b x t Q); tauto|apply IH; tauto].
Qed.
Lemma trees_same : forall b sv find xs ts ss, mirrored sv -> Forall2 (table_state b) xs ts -> Forall2 (says_table b) ts ss ->
  Forall2 same_tree (map (tree_of sv find) ss) (map (tree_asked b sv find) xs).
Proof.
  intros b sv find xs ts ss MI T. revert ss. induction T as [|x t xs ts Q T IH]; intros ss Y; inversion Y as [|? s ? ss' Y1 Y2]; subst; cbn [map]; [constructor|].
  constructor; [|now apply IH]. eapply tree_same; eauto.
Qed.
Lemma nodup_parts : forall p xs xs', add_part xs p = Some xs' -> NoDup (flat_map names_of xs') -> NoDup (flat_map names_of xs).
Proof.
  intros p xs xs' A ND. destruct (names_grow p xs xs' A) as [more M]. rewrite M in ND. clear -ND. revert ND. generalize (flat_map names_of xs). intros l N.
  induction l as [|x l IHl]; [constructor|]. inversion N as [|? ? N1 N2]; subst. constructor; [|now apply IHl]. intros I. apply N1. apply in_or_app. now left.
Qed.
Lemma parts_none : forall ps, fold_left (fun o p => match o with Some ts => add_part ts p | None => None end) ps None = None.
Proof. induction ps; [reflexivity|assumption]. Qed.

Section Delete.
  Context (b : backend) (E : env).
  Let call_of := fun (bo : backend * delop) g => delete_join_call b (snd bo) g.
  Lemma delete_join_inv : forall H given srcs, Forall2 call_of H given ->
    tables_asked (flat_map ad_from given) = Some srcs -> NoDup (flat_map names_of srcs) ->
    let h := program E H in
    let q := calls del_step empty_delete h in
    all_succeed del_step empty_delete h /\ target_state b (flat_map ad_targets given) (d_tabs q) /\ Forall2 (table_state b) srcs (d_refs q) /\
    Forall (where_cond b) (d_where q) /\ (d_where q = [] -> flat_map ad_where given = []) /\
    forall sv at_, mirrored sv -> chosen b sv at_ (d_where q) = where_holds b sv at_ (flat_map ad_where given).
  Proof.
    intros H. induction H as [|[bo op] H IH] using rev_ind; intros given srcs F TA ND; cbv zeta.
    - inversion F; subst. cbn in TA. injection TA as <-. cbn [flat_map]. split; [exact Logic.I|]. split; [split; [constructor|intros n; reflexivity]|].
      split; [constructor|]. split; [constructor|]. split; [reflexivity|]. intros; reflexivity.
    - apply PfLists.Forall2_snoc in F. destruct F as [given' [g [-> [F P]]]]. unfold call_of in P. cbn [snd] in P.
      rewrite !flat_map_app in *. cbn [flat_map] in *. rewrite !app_nil_r in *. rewrite parts_snoc in TA.
      destruct (tables_asked (flat_map ad_from given')) as [srcs'|] eqn:TA'; [|rewrite parts_none in TA; discriminate].
      assert (ND' : NoDup (flat_map names_of srcs')).
      { destruct P; cbn [ad_from fold_left] in TA; try (injection TA as <-; exact ND); exact (nodup_parts _ _ _ TA ND). }
      specialize (IH given' srcs' F TA' ND'). cbv zeta in IH. rewrite PfLists.program_snoc, calls_snoc.
      set (q := calls del_step empty_delete (program E H)) in *. destruct IH as [A [TG [T [W [N S]]]]].
      assert (K : exists q', del_step (pure_world (with_be E bo)) q op = (q', Ok tt) /\ target_state b (flat_map ad_targets given' ++ ad_targets g) (d_tabs q') /\
        Forall2 (table_state b) srcs (d_refs q') /\ Forall (where_cond b) (d_where q') /\ (d_where q' = [] -> flat_map ad_where given' ++ ad_where g = []) /\
        forall sv at_, mirrored sv -> chosen b sv at_ (d_where q') = chosen b sv at_ (d_where q) && where_holds b sv at_ (ad_where g)).
      { clearbody q. destruct q as [ig tabs refs wh al]. cbn [d_tabs d_refs d_where] in *.
        assert (ST : forall sv at_, mirrored sv -> chosen b sv at_ wh = chosen b sv at_ wh && where_holds b sv at_ []) by (intros; symmetry; apply andb_true_r).
        assert (SN : wh = [] -> flat_map ad_where given' ++ [] = []) by (rewrite app_nil_r; exact N).
        destruct P; cbn [ad_from ad_targets ad_where] in *; cbn [del_step]; cbn [fold_left] in TA;
          try (match type of TA with Some _ = Some _ => injection TA as <- end).
        - destruct (target_call b (with_be E bo) a ps _ tabs H0 H1 H2 TG) as [ts' [Q R]]. rewrite Q. cbn [lift1 fst snd]. eexists. split; [reflexivity|]. cbn [d_tabs d_refs d_where]. auto.
        - rewrite !app_nil_r. destruct (from_effect b (with_be E bo) a k ps srcs' srcs refs H0 H1 H2 TA T ND) as [ts' [Q R]]. rewrite Q. cbn [lift1 fst snd]. eexists. split; [reflexivity|]. cbn [d_tabs d_refs d_where]. auto.
        - rewrite !app_nil_r. destruct (from_table_effect b (with_be E bo) t a srcs' srcs refs H0 TA T ND) as [ts' [Q R]]. rewrite Q. cbn [lift1 fst snd]. eexists. split; [reflexivity|]. cbn [d_tabs d_refs d_where]. auto.
        - rewrite !app_nil_r. destruct (join_effect b (with_be E bo) (j3 ty) arg t a srcs' srcs refs H0 H1 ltac:(destruct ty; discriminate) TA T ND) as [ts' [Q R]]. rewrite Q. cbn [lift1 fst snd]. eexists. split; [reflexivity|]. cbn [d_tabs d_refs d_where]. auto.
        - rewrite !app_nil_r. destruct (on_part_effect b (with_be E bo) a k ps srcs' srcs refs H0 H1 H2 H3 TA T ND) as [ts' [Q R]]. rewrite Q. cbn [lift1 fst snd]. eexists. split; [reflexivity|]. cbn [d_tabs d_refs d_where]. auto.
        - rewrite app_nil_r. destruct (where_full b (with_be E bo) a k ps wh H0 W) as [wh' [Q [R1 [R2 R3]]]]. rewrite Q. cbn [lift1 fst snd]. eexists. split; [reflexivity|]. cbn [d_tabs d_refs d_where].
          split; [exact TG|]. split; [exact T|]. split; [exact R1|]. split; [|exact R3]. intros X. destruct (R2 X) as [-> Y]. rewrite app_nil_r. exact (N Y).
        - eexists. split; [reflexivity|]. cbn [d_tabs d_refs d_where]. rewrite !app_nil_r. auto.
        - eexists. split; [reflexivity|]. cbn [d_tabs d_refs d_where]. rewrite !app_nil_r. auto.
        - eexists. split; [reflexivity|]. cbn [d_tabs d_refs d_where]. rewrite !app_nil_r. auto. }
      destruct K as [q' [Q [TG' [T' [W' [N' S']]]]]]. split; [apply succeed_snoc; [exact A|]; fold q; now rewrite Q|].
      rewrite Q. cbn [fst]. split; [exact TG'|]. split; [exact T'|]. split; [exact W'|]. split; [exact N'|].
      intros sv at_ MI. rewrite (S' sv at_ MI), (S sv at_ MI). unfold where_holds. now rewrite forallb_app.
  Qed.
  Lemma path_eqb_eq : forall p q, path_eqb p q = true <-> p = q.
  Proof.
    induction p as [|x p IH]; intros [|y q]; cbn [path_eqb]; split; try discriminate; auto.
    - intros H. apply andb_prop in H. destruct H as [H1 H2]. apply seqb_eq in H1. apply IH in H2. congruence.
    - intros H. injection H as -> ->. rewrite seqb_refl. now apply IH.
  Qed.
  Lemma member_same : forall l m, (forall p : path, In p l <-> In p m) -> forall p, existsb (path_eqb p) l = existsb (path_eqb p) m.
  Proof.
    intros l m H p. apply Bool.eq_true_iff_eq. rewrite !existsb_exists.
    split; intros [x [I Q]]; exists x; (split; [now apply H|exact Q]).
  Qed.
  Lemma removed_same : forall ss ts cs l m, tables_in ss = tables_in ts -> (forall p, In p l <-> In p m) -> forall t i, removed ss cs l t i = removed ts cs m t i.
  Proof.
    intros ss ts cs l m T M t i. unfold removed. rewrite T. apply existsb_same. intros x. now rewrite (member_same l m M).
  Qed.
  Lemma delete_said : forall q tgs srcs (cond : server -> (path -> literal) -> bool),
    target_state b tgs (d_tabs q) -> Forall (plain_target b) tgs -> Forall2 (table_state b) srcs (d_refs q) ->
    NoDup (flat_map names_of srcs) -> srcs <> [] ->
    Forall (cond_ok b) (d_where q) -> (forall sv at_, mirrored sv -> chosen b sv at_ (d_where q) = cond sv at_) ->
    let targets := map (fun p => segments (fst p)) tgs in
    targets <> [] -> (forall p, In p targets -> In p (flat_map names_of srcs)) ->
    d_where q <> [] \/ d_allow q = true ->
    exists s st, text (with_be E b) (VDelete q) = Ok s /\ understood (dialect_of b) s = Some st /\
      forall sv find db, mirrored sv -> exists db', multi_delete sv find st db = Some db' /\
        forall t, db' t = map snd (filter (fun x => negb (removed (map (tree_asked b sv find) srcs)
          (filter (fun c => cond sv (find c)) (all_rows (numbered db) (map (tree_asked b sv find) srcs))) targets t (fst x))) (indexed (db t))).
  Proof.
    intros q tgs srcs cond [TG1 TG2] PT T ND NE W S targets NT KN AL.
    destruct (delete_statement (with_be E b) q) as [s [st [X1 [X2 X3]]]]; [|exact AL|].
    { cbn [with_be e_be]. split; [|split; [|split]].
      - eapply Forall_impl; [|exact TG1]. intros t [n [-> G]]. pose proof (bare_table b n G) as Z. now inversion Z.
      - intros X. rewrite X in T. destruct srcs; [now apply NE|inversion T].
      - exact (fine_tables b srcs _ T ND).
      - exact W. }
    exists s, st. split; [exact X1|]. split; [exact X2|]. cbn [with_be e_be] in X3. destruct q as [ig tabs refs wh al]. cbn [d_tabs d_refs d_where] in *.
    inversion X3 as [? ? ? ? ? tabs' refs' wh' Y1 Y2 Y3]; subst. clear X3.
    assert (TB : forallb bare tabs' = true /\ forall p, In p (map sc_table tabs') <-> In p targets).
    { assert (SN : forall s, In s tabs' -> exists n, In (MkTable (VStr n) VNone []) tabs /\ s = MkSource (name_segments n) None []).
      { clear -Y1 TG1. induction Y1 as [|t s ts ss Q Y IH]; intros s' J; [destruct J|]. inversion TG1 as [|? ? [n [-> G]] TG']; subst. destruct J as [-> |J].
        - exists n. split; [now left|]. inversion Q as [? ? ? p o l Q1 Q2 Q3]; subst. cbn in Q1, Q2. injection Q1 as <-. subst o. inversion Q3. reflexivity.
        - destruct (IH TG' s' J) as [m [J1 J2]]. exists m. split; [now right|exact J2]. }
      assert (SM : forall n, In (MkTable (VStr n) VNone []) tabs -> In (MkSource (name_segments n) None []) tabs').
      { clear -Y1. intros n J. induction Y1 as [|t s ts ss Q Y IH]; [destruct J|]. destruct J as [-> |J]; [|right; exact (IH J)]. left.
        inversion Q as [? ? ? p o l Q1 Q2 Q3]; subst. cbn in Q1, Q2. injection Q1 as <-. subst o. inversion Q3. reflexivity. }
      split.
      - apply forallb_forall. intros s' J. destruct (SN s' J) as [n [_ ->]]. reflexivity.
      - intros p. unfold targets. rewrite !in_map_iff. split.
        + intros [s' [<- J]]. destruct (SN s' J) as [n [J1 ->]]. apply TG2 in J1. exists (VStr n, VNone). split; [reflexivity|exact J1].
        + intros [x [<- J]]. rewrite Forall_forall in PT. destruct (PT x J) as [[n [Q1 _]] Q2]. destruct x as [x y]. cbn [fst snd] in *. subst x y.
          exists (MkSource (name_segments n) None []). split; [reflexivity|]. apply SM, TG2, J. }
    destruct TB as [TB1 TB2].
    assert (TN : tabs' <> []) by (intros ->; destruct targets as [|p ps]; [now apply NT|]; destruct (proj2 (TB2 p) (or_introl eq_refl))).
    intros sv find db MI. pose proof (trees_same b sv find srcs refs refs' MI T Y2) as TS.
    assert (R : all_rows (numbered db) (map (tree_of sv find) refs') = all_rows (numbered db) (map (tree_asked b sv find) srcs)) by (apply rows_same; exact TS).
    pose proof (tables_in_same _ _ TS) as TI.
    assert (K : forall c, kept (compare sv) (value_in sv find c) wh' = cond sv (find c)).
    { intros c. rewrite <- (S sv (find c) MI). exact (kept_chosen b sv (find c) wh wh' Y3). }
    assert (NM : map fst (tables_in (map (tree_asked b sv find) srcs)) = flat_map names_of srcs).
    { clear. generalize srcs. intros l. induction l as [|x xs IH]; [reflexivity|]. unfold tables_in in *. cbn [map flat_map]. rewrite map_app, IH. f_equal.
      unfold names_of. cbn [tree_asked tr_name tr_joins map fst]. f_equal. rewrite !map_map. apply map_ext. intros j. reflexivity. }
    destruct tabs' as [|t' ts']; [congruence|]. eexists. split.
    - unfold multi_delete. rewrite TB1, TI, NM. cbn [andb].
      assert (Q : forallb (fun p => existsb (path_eqb p) (flat_map names_of srcs)) (map sc_table (t' :: ts')) = true).
      { apply forallb_forall. intros p J. apply existsb_exists. exists p. split; [apply KN, TB2, J|now apply path_eqb_eq]. }
      rewrite Q. reflexivity.
    - intros t. unfold without, selected_rows. rewrite R, (filter_ext _ _ K).
      f_equal. apply filter_ext. intros x. f_equal. apply removed_same; [exact TI|]. intros p. apply TB2.
  Qed.
  Lemma delete_join_program : forall H given srcs, Forall2 call_of H given ->
    tables_asked (flat_map ad_from given) = Some srcs -> NoDup (flat_map names_of srcs) -> srcs <> [] ->
    let targets := map (fun p => segments (fst p)) (flat_map ad_targets given) in
    targets <> [] -> (forall p, In p targets -> In p (flat_map names_of srcs)) ->
    flat_map ad_where given <> [] \/ delete_confirmed (map snd H) ->
    let h := program E H in
    let q := calls del_step empty_delete h in
    all_succeed del_step empty_delete h /\
    exists s st, text (with_be E b) (VDelete q) = Ok s /\ understood (dialect_of b) s = Some st /\
      forall sv find db, mirrored sv -> exists db', multi_delete sv find st db = Some db' /\
        forall t, db' t = map snd (filter (fun x => negb (removed (map (tree_asked b sv find) srcs) (asked_rows b sv find db srcs (flat_map ad_where given)) targets t (fst x))) (indexed (db t))).
  Proof.
    intros H given srcs F TA ND NE targets NT KN C h q.
    destruct (delete_join_inv H given srcs F TA ND) as [A [TG [T [W [N S]]]]]. fold h in A. fold h q in TG, T, W, N, S. split; [exact A|].
    apply (delete_said q (flat_map ad_targets given) srcs (fun sv at_ => where_holds b sv at_ (flat_map ad_where given))); auto.
    - clear -F. induction F as [|[bo op] g H given P F IH]; [constructor|]. cbn [flat_map]. apply Forall_app. split; [|exact IH]. unfold call_of in P. cbn [snd] in P.
      destruct P; cbn [ad_targets]; try constructor. assumption.
    - eapply Forall_impl; [|exact W]. apply where_cond_ok.
    - destruct C as [C|C]; [left; intros X; exact (C (N X))|right]. apply del_allow_inv. unfold h, program. rewrite map_map. exact C.
  Qed.
End Delete.

(** ** UPDATE *)
Lemma last_for_app : forall A c (l m : list (str * A)), last_for c (l ++ m) = match last_for c m with Some x => Some x | None => last_for c l end.
Proof.
  intros A c l m. induction m as [|[d x] m IH] using rev_ind; [now rewrite app_nil_r|]. rewrite app_assoc, !last_for_snoc, IH. now destruct (seqb c d).
Qed.
Lemma stored_last : forall sets (r : row) c, fold_left store sets r c = match last_for c (map (fun a => (column_of (fst a), snd a)) sets) with Some l => l | None => r c end.
Proof.
  induction sets as [|[p l] sets IH] using rev_ind; intros r c; [reflexivity|]. rewrite fold_left_app, map_app. cbn [map fst snd]. rewrite last_for_snoc.
  cbn [fold_left]. unfold store at 1. cbn [fst snd]. destruct (seqb c (column_of p)); [reflexivity|apply IH].
Qed.
Lemma for_table_app : forall own n l m, for_table own n (l ++ m) = for_table own n l ++ for_table own n m.
Proof. intros. unfold for_table. apply flat_map_app. Qed.
Lemma deduped_for : forall own n full out, deduped full out -> deduped (for_table own n full) (for_table own n out).
Proof.
  intros own n full out D. induction D as [|full out [d x] D IH|full out [d x] D IH I]; [constructor| |]; rewrite !for_table_app.
  - unfold for_table at 2 4. cbn [flat_map fst snd]. destruct (path_eqb (own (name_segments d)) n); cbn [app]; [now constructor|now rewrite !app_nil_r].
  - unfold for_table at 2. cbn [flat_map fst snd]. destruct (path_eqb (own (name_segments d)) n) eqn:Q; cbn [app]; [|now rewrite !app_nil_r].
    constructor; [exact IH|]. unfold for_table. apply in_flat_map. exists (d, x). split; [exact I|]. cbn [fst snd]. rewrite Q. now left.
Qed.
Lemma says_stores : forall b own n out vs', Forall (set_in_pair b) out -> Forall2 (says_assignment b) (map the_value out) vs' ->
  map (fun a => (column_of (fst a), snd a)) (filter (fun a => path_eqb (own (fst a)) n) vs') = for_table own n (stores b out).
Proof.
  intros b own n out vs' F. revert vs'. induction F as [|[c v] out [[d [C _]] V] F IH]; intros vs' S; inversion S as [|? [p l] ? vs2 S1 S2]; subst; [reflexivity|].
  cbn [fst snd] in *. subst c. inversion S1 as [? ? ? ? Q1 Q2]; subst. cbn in Q1. injection Q1 as <-.
  rewrite (stores_app b [(VStr d, v)] out : stores b ((VStr d, v) :: out) = _), for_table_app, <- (IH vs2 S2).
  unfold stores. cbn [flat_map fst snd]. rewrite Q2. unfold for_table. cbn [app flat_map fst snd filter]. destruct (path_eqb (own (name_segments d)) n); reflexivity.
Qed.
Lemma assigned_last : forall own ts cs sets l t x c,
  (forall n d, last_for d (map (fun a => (column_of (fst a), snd a)) (filter (fun a => path_eqb (own (fst a)) n) sets)) = last_for d (for_table own n l)) ->
  assign_in own ts cs sets t x c = match last_for c (row_assigned own (tables_in ts) cs l t (fst x)) with Some v => v | None => snd x c end.
Proof.
  intros own ts cs sets l t x c Q. unfold assign_in, row_assigned. generalize (tables_in ts). intros ns. induction ns as [|y ns IH] using rev_ind; [reflexivity|].
  rewrite fold_left_app, flat_map_app, last_for_app. cbn [fold_left flat_map]. rewrite app_nil_r.
  destruct (path_eqb (snd y) t && occurs cs (fst y) (fst x)); [|exact IH]. rewrite stored_last, Q. now destruct (last_for c (for_table own (fst y) l)).
Qed.

Section Update.
  Context (b : backend) (E : env).
  Let call_of := fun (bo : backend * updop) g => update_join_call b (snd bo) g.
  Lemma update_join_inv : forall H given srcs, Forall2 call_of H given ->
    tables_asked (flat_map au_from given) = Some srcs -> NoDup (flat_map names_of srcs) ->
    let h := program E H in
    let q := calls upd_step empty_update h in
    all_succeed upd_step empty_update h /\ Forall2 (table_state b) srcs (u_tabs q) /\
    Forall (where_cond b) (u_where q) /\ (u_where q = [] -> flat_map au_where given = []) /\
    (forall sv at_, mirrored sv -> chosen b sv at_ (u_where q) = where_holds b sv at_ (flat_map au_where given)) /\
    exists out, u_vals q = map the_value out /\ Forall (set_in_pair b) out /\ deduped (stores b (flat_map au_sets given)) (stores b out).
  Proof.
    intros H. induction H as [|[bo op] H IH] using rev_ind; intros given srcs F TA ND; cbv zeta.
    - inversion F; subst. cbn in TA. injection TA as <-. cbn [flat_map]. split; [exact Logic.I|]. 
      split; [constructor|]. split; [constructor|]. split; [reflexivity|]. split; [intros; reflexivity|]. exists []. split; [reflexivity|]. split; constructor.
    - apply PfLists.Forall2_snoc in F. destruct F as [given' [g [-> [F P]]]]. unfold call_of in P. cbn [snd] in P.
      rewrite !flat_map_app in *. cbn [flat_map] in *. rewrite !app_nil_r in *. rewrite parts_snoc in TA.
      destruct (tables_asked (flat_map au_from given')) as [srcs'|] eqn:TA'; [|rewrite parts_none in TA; discriminate].
      assert (ND' : NoDup (flat_map names_of srcs')).
      { destruct P; cbn [au_from fold_left] in TA; try (injection TA as <-; exact ND); exact (nodup_parts _ _ _ TA ND). }
      specialize (IH given' srcs' F TA' ND'). cbv zeta in IH. rewrite PfLists.program_snoc, calls_snoc.
      set (q := calls upd_step empty_update (program E H)) in *. destruct IH as [A [T [W [N [S V]]]]].
      assert (K : exists q', upd_step (pure_world (with_be E bo)) q op = (q', Ok tt) /\
        Forall2 (table_state b) srcs (u_tabs q') /\ Forall (where_cond b) (u_where q') /\ (u_where q' = [] -> flat_map au_where given' ++ au_where g = []) /\
        (forall sv at_, mirrored sv -> chosen b sv at_ (u_where q') = chosen b sv at_ (u_where q) && where_holds b sv at_ (au_where g)) /\
        exists out, u_vals q' = map the_value out /\ Forall (set_in_pair b) out /\ deduped (stores b (flat_map au_sets given' ++ au_sets g)) (stores b out)).
      { clearbody q. destruct q as [ig tabs vals wh al]. cbn [u_tabs u_vals u_where] in *.
        assert (ST : forall sv at_, mirrored sv -> chosen b sv at_ wh = chosen b sv at_ wh && where_holds b sv at_ []) by (intros; symmetry; apply andb_true_r).
        assert (SN : wh = [] -> flat_map au_where given' ++ [] = []) by (rewrite app_nil_r; exact N).
        destruct P; cbn [au_from au_sets au_where] in *; cbn [upd_step]; cbn [fold_left] in TA;
          try (match type of TA with Some _ = Some _ => injection TA as <- end).
        - rewrite !app_nil_r. destruct (from_effect b (with_be E bo) [t] [] ps srcs' srcs tabs H0 H1 H2 TA T ND) as [ts' [Q R]]. rewrite Q. cbn [lift1 fst snd]. eexists. split; [reflexivity|]. cbn [u_tabs u_vals u_where]. auto.
        - rewrite !app_nil_r. destruct (join_effect b (with_be E bo) (j3 ty) arg t a srcs' srcs tabs H0 H1 ltac:(destruct ty; discriminate) TA T ND) as [ts' [Q R]]. rewrite Q. cbn [lift1 fst snd]. eexists. split; [reflexivity|]. cbn [u_tabs u_vals u_where]. auto.
        - rewrite !app_nil_r. destruct (on_part_effect b (with_be E bo) a k ps srcs' srcs tabs H0 H1 H2 H3 TA T ND) as [ts' [Q R]]. rewrite Q. cbn [lift1 fst snd]. eexists. split; [reflexivity|]. cbn [u_tabs u_vals u_where]. auto.
        - destruct V as [out [V1 [V2 V3]]]. subst vals. destruct (set_in_effect b (with_be E bo) a k ps _ out H0 H1 H2 H3 V2 V3) as [out' [Q R]]. rewrite Q. cbn [lift1 fst snd].
          eexists. split; [reflexivity|]. cbn [u_tabs u_vals u_where]. split; [exact T|]. split; [exact W|]. split; [exact SN|]. split; [exact ST|]. exists out'. split; [reflexivity|exact R].
        - rewrite app_nil_r. destruct (where_full b (with_be E bo) a k ps wh H0 W) as [wh' [Q [R1 [R2 R3]]]]. rewrite Q. cbn [lift1 fst snd]. eexists. split; [reflexivity|]. cbn [u_tabs u_vals u_where].
          split; [exact T|]. split; [exact R1|]. split; [|split; [exact R3|exact V]]. intros X. destruct (R2 X) as [-> Y]. rewrite app_nil_r. exact (N Y).
        - eexists. split; [reflexivity|]. cbn [u_tabs u_vals u_where]. rewrite !app_nil_r. auto.
        - eexists. split; [reflexivity|]. cbn [u_tabs u_vals u_where]. rewrite !app_nil_r. auto.
        - eexists. split; [reflexivity|]. cbn [u_tabs u_vals u_where]. rewrite !app_nil_r. auto. }
      destruct K as [q' [Q [T' [W' [N' [S' V']]]]]]. split; [apply succeed_snoc; [exact A|]; fold q; now rewrite Q|].
      rewrite Q. cbn [fst]. split; [exact T'|]. split; [exact W'|]. split; [exact N'|]. split; [|exact V'].
      intros sv at_ MI. rewrite (S' sv at_ MI), (S sv at_ MI). unfold where_holds. now rewrite forallb_app.
  Qed.
  Lemma update_said : forall q out sets srcs (cond : server -> (path -> literal) -> bool),
    Forall2 (table_state b) srcs (u_tabs q) -> NoDup (flat_map names_of srcs) -> srcs <> [] ->
    u_vals q = map the_value out -> Forall (set_in_pair b) out -> deduped (stores b sets) (stores b out) -> Forall (set_in_pair b) sets ->
    Forall (cond_ok b) (u_where q) -> (forall sv at_, mirrored sv -> chosen b sv at_ (u_where q) = cond sv at_) ->
    sets <> [] -> u_where q <> [] \/ u_allow q = true ->
    exists s st, text (with_be E b) (VUpdate q) = Ok s /\ understood (dialect_of b) s = Some st /\
      forall sv find own db, mirrored sv -> (forall n, none_returns (for_table own n (stores b sets))) ->
        exists db', multi_update sv find own st db = Some db' /\
        forall t, Forall2 (fun x new => forall c, new c =
            match last_for c (row_assigned own (asked_names b sv find srcs)
              (filter (fun c => cond sv (find c)) (all_rows (numbered db) (map (tree_asked b sv find) srcs))) (stores b sets) t (fst x)) with
            | Some l => l | None => snd x c end) (indexed (db t)) (db' t).
  Proof.
    intros q out sets srcs cond T ND NE V FO DO FS W S NS AL.
    assert (SNIL : forall l, Forall (set_in_pair b) l -> stores b l = [] -> l = []).
    { intros l G Q. destruct G as [|p l [[c [Pc _]] Pv] G]; [reflexivity|]. exfalso. destruct p as [pc v]. cbn [fst snd] in *. subst pc.
      unfold stores in Q. cbn [flat_map fst snd] in Q. destruct (cell_literal b v Pv) as [_ [l' L]]. rewrite L in Q. discriminate. }
    assert (OUT : out <> []) by (intros ->; apply NS, (SNIL sets FS); exact (deduped_nil _ _ DO eq_refl)).
    destruct (update_statement (with_be E b) q) as [s [st [X1 [X2 X3]]]]; [|exact AL|].
    { cbn [with_be e_be]. split; [|split; [|split; [|split]]].
      - intros X. rewrite X in T. destruct srcs; [now apply NE|inversion T].
      - exact (fine_tables b srcs _ T ND).
      - rewrite V. destruct out; [congruence|discriminate].
      - rewrite V. clear -FO. induction FO as [|[c v] out [[d [Hc Hg]] Hv] FO IH]; [constructor|]. cbn [fst snd] in *. subst c. constructor; [|exact IH].
        cbn [the_value fst snd]. destruct (cell_literal b v Hv) as [L1 [l L2]]. split; [exact Hg|]. split; [exact L1|]. rewrite L2. discriminate.
      - exact W. }
    exists s, st. split; [exact X1|]. split; [exact X2|]. cbn [with_be e_be] in X3. destruct q as [ig tabs vals wh al]. cbn [u_tabs u_vals u_where] in *. subst vals.
    inversion X3 as [? ? ? ? ? tabs' vs' wh' Y1 Y2 Y3]; subst. clear X3.
    intros sv find own db MI NR. pose proof (trees_same b sv find srcs tabs tabs' MI T Y1) as TS.
    assert (R : all_rows (numbered db) (map (tree_of sv find) tabs') = all_rows (numbered db) (map (tree_asked b sv find) srcs)) by (apply rows_same; exact TS).
    pose proof (tables_in_same _ _ TS) as TI.
    assert (K : forall c, kept (compare sv) (value_in sv find c) wh' = cond sv (find c)).
    { intros c. rewrite <- (S sv (find c) MI). exact (kept_chosen b sv (find c) wh wh' Y3). }
    eexists. split; [reflexivity|]. intros t. cbv beta. unfold selected_rows. rewrite R, (filter_ext _ _ K).
    generalize (indexed (db t)). intros l. induction l as [|x l IH]; cbn [map]; constructor; [|exact IH]. intros c.
    rewrite (assigned_last own _ _ vs' (stores b sets) t x c); [unfold asked_names; now rewrite TI|].
    intros n d. rewrite (says_stores b own n out vs' FO Y2). apply deduped_last; [now apply deduped_for|apply NR].
  Qed.
  Lemma update_join_program : forall H given srcs, Forall2 call_of H given ->
    tables_asked (flat_map au_from given) = Some srcs -> NoDup (flat_map names_of srcs) -> srcs <> [] ->
    let sets := flat_map au_sets given in let pairs := flat_map au_where given in
    sets <> [] -> pairs <> [] \/ update_confirmed (map snd H) ->
    let h := program E H in
    let q := calls upd_step empty_update h in
    all_succeed upd_step empty_update h /\
    exists s st, text (with_be E b) (VUpdate q) = Ok s /\ understood (dialect_of b) s = Some st /\
      forall sv find own db, mirrored sv -> (forall n, none_returns (for_table own n (stores b sets))) ->
        exists db', multi_update sv find own st db = Some db' /\
        forall t, Forall2 (fun x new => forall c, new c =
            match last_for c (row_assigned own (asked_names b sv find srcs) (asked_rows b sv find db srcs pairs) (stores b sets) t (fst x)) with
            | Some l => l | None => snd x c end) (indexed (db t)) (db' t).
  Proof.
    intros H given srcs F TA ND NE sets pairs NS C h q.
    destruct (update_join_inv H given srcs F TA ND) as [A [T [W [N [S [out [V [FO DO]]]]]]]]. fold h in A. fold h q in T, W, N, S, V. fold pairs in N, S. fold sets in DO. split; [exact A|].
    apply (update_said q out sets srcs (fun sv at_ => where_holds b sv at_ pairs)); auto.
    - unfold sets. clear -F. induction F as [|[bo op] g H given P F IH]; [constructor|]. cbn [flat_map]. apply Forall_app. split; [|exact IH].
      unfold call_of in P. cbn [snd] in P. destruct P; cbn [au_sets]; try constructor. assumption.
    - eapply Forall_impl; [|exact W]. apply where_cond_ok.
    - destruct C as [C|C]; [left; intros X; exact (C (N X))|right]. apply upd_allow_inv. unfold h, program. rewrite map_map. exact C.
  Qed.
End Update.
