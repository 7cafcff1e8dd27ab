(** Proofs: programs whose queries render. *)
From Verif Require Import Base NumFmt Value Backend Eq Render ParseArgs Build Queries History
  SpecArgs SpecHistory SpecErrors SpecSame SpecFails RenderFacts PfArgs PfErrors PfFails.
From Verif Require PfCarry.
Open Scope N_scope.

Section Sound.
  Context (E : env).
  Hypothesis prints_data : forall v, e_pystr E v <> None.
  Notation EB b := (with_be E b).
  Lemma sound_child : forall v x, sound E v -> textual_eq v = false -> In x (children v) -> sound E x.
  Proof. intros v x S T I. inversion S; subst. auto. Qed.
  Lemma data_text : forall b v, exists t, pytext (EB b) v = Ok t.
  Proof.
    intros b v. assert (D : exists t, match e_pystr (EB b) v with Some s => Ok s | None => Err EUnmodelled end = Ok t).
    { change (e_pystr (EB b) v) with (e_pystr E v). destruct (e_pystr E v) eqn:P; [eauto|]. now destruct (prints_data v). }
    destruct v; try exact D; eexists; reflexivity.
  Qed.
  Lemma sound_text : forall b v, sound E v -> exists t, text (EB b) v = Ok t.
  Proof.
    intros b v S. destruct (is_sql v) eqn:Q; [inversion S as [w P]; subst; exact (P Q b)|]. rewrite text_unfold.
    destruct v; try discriminate Q; apply data_text.
  Qed.
  Lemma sound_ref : forall b v, sound E v -> exists t, sqlref (EB b) (text (EB b)) v = Ok t.
  Proof.
    intros b v S. destruct (sound_text b v S) as [t T]. unfold sqlref.
    destruct v; cbn [is_sql]; rewrite ?T; cbn [bind]; eauto.
  Qed.
  Lemma sound_value : forall b v, sound E v -> exists t, sqlvalue (EB b) (text (EB b)) v = Ok t.
  Proof.
    intros b v. induction v as [v IH] using val_ind_children. intros S. destruct (sound_text b v S) as [t T].
    destruct v; cbn [sqlvalue]; rewrite ?T; cbn [bind]; eauto.
    destruct (truthy (VSeq k l)) eqn:Z.
    - destruct (mapM (sqlvalue (EB b) (text (EB b))) l) as [r|e] eqn:M; cbn [bind]; [eauto|]. exfalso. apply mapM_err in M.
      destruct M as [x [I M]]. destruct (IH x I) as [s Q]; [|congruence]. exact (sound_child _ _ S eq_refl I).
    - exfalso. destruct l; [|destruct k; discriminate Z]. inversion S as [? ? N]; subst. now apply (N k).
  Qed.
  Lemma sound_printed : forall b w v e, sound E v -> printed (EB b) w v <> Err e.
  Proof.
    intros b w v e S P. destruct w; cbn [printed] in P;
      [destruct (sound_text b v S)|destruct (sound_ref b v S)|destruct (sound_value b v S)]; congruence.
  Qed.
  Definition all_sound (l : list (way * val)) : Prop := forall w x, In (w, x) l -> sound E x.
  Lemma not_found : forall b l e, all_sound l -> ~ found (EB b) l e.
  Proof. intros b l e A [w [x [I P]]]. exact (sound_printed b w x e (A w x I) P). Qed.
  Lemma sound_leaf : forall v, is_sql v = false -> children v = [] -> match v with VSeq _ _ | VDict _ => False | _ => True end -> sound E v.
  Proof.
    intros v S C D. constructor; [congruence|intros k ->; destruct D|]. rewrite C. intros _ x [].
  Qed.
  Lemma sound_listed : forall k l, sound E (VSeq k l) -> sound E (VSeq KList l).
  Proof.
    intros k l S. constructor; [discriminate| |intros _ x I; exact (sound_child _ _ S eq_refl I)].
    intros k' Q. injection Q as _ ->. inversion S as [? ? N]; subst. now apply (N k).
  Qed.
  Lemma operand_sound : forall k rk v, sound E v -> all_sound (operand k rk v).
  Proof.
    intros k rk v S w x I.
    assert (L : forall ks l, v = VSeq ks l ->
      In (w, x) (let rest := filter (fun x => negb (is_none x)) l in if existsb is_none l && is_nilb rest then [] else [(AsValue, VSeq KList rest)]) -> sound E x).
    { intros ks l -> J. cbv zeta in J. destruct (existsb is_none l && is_nilb _) eqn:Z; [destruct J|]. destruct J as [J|[]]. injection J as <- <-.
      constructor; [discriminate| |].
      - intros k' Q. injection Q as _ Q. rewrite Q in Z. cbn [is_nilb] in Z. rewrite andb_true_r in Z. inversion S as [? ? N]; subst.
        destruct l as [|y l]; [now apply (N ks)|]. cbn [existsb filter] in *. destruct (is_none y); [discriminate Z|discriminate Q].
      - intros _ y J. cbn [children] in J. apply filter_In in J. apply (sound_child _ _ S eq_refl). apply J. }
    assert (N : In (w, x) [(AsValue, v)] \/ In (w, x) [(AsName, v)] -> sound E x).
    { intros [[J|[]]|[J|[]]]; now injection J as <- <-. }
    destruct v as [| | | | |s| | | |ks l| | | | | | | | | | | | | | | | | | | | |]; try (destruct k, rk; apply N; (left; exact I) || (right; exact I)).
    destruct k, rk; (exact (L ks l eq_refl I) || (apply N; left; exact I)).
  Qed.
  Lemma sound_parts : forall v, match v with VSeq _ l => l <> [] | VRel _ _ | VCond _ _ _ _ | VValue _ _ => True | _ => False end ->
    (forall x, In x (children v) -> sound E x) -> sound E v.
  Proof.
    intros v K C. constructor; [|intros k ->; now apply K|auto]. intros S b.
    destruct (text (EB b) v) as [t|e] eqn:T; [exists t; exact T|]. exfalso. revert T.
    apply text_step; [| |congruence|intros q ->; destruct K|intros q ->; destruct K|intros q ->; destruct K].
    - apply not_found. destruct v; try destruct K; [discriminate S| | |]; cbn [children shown] in *.
      + intros w x [Q|[]]. injection Q as <- <-. apply C. now left.
      + intros w x [Q|I]; [injection Q as <- <-; apply C; now left|]. refine (operand_sound _ _ _ _ w x I). apply C. right. now left.
      + intros w x [Q|[Q|[]]]; injection Q as <- <-; apply C; cbn; auto.
    - intros [t [j [I _]]]. destruct v; try destruct K; destruct I.
  Qed.
  Notation tlt := (PfCarry.tlt (sound E)).
  Lemma names_sound : forall l, Forall (PfCarry.tl2 (sound E)) l -> all_sound (names l).
  Proof.
    intros l F w x I. apply names_child in I. apply in_flat_map in I. destruct I as [p [I J]]. rewrite Forall_forall in F. destruct (F p I) as [A B].
    unfold pair_vals in J. destruct J as [<-|[<-|[]]]; assumption.
  Qed.
  Lemma sorted_sound : forall l, Forall (PfCarry.tl1 (sound E)) l -> all_sound (sorted l).
  Proof.
    intros l F w x I. apply sorted_child in I. apply in_map_iff in I. destruct I as [p [<- I]]. rewrite Forall_forall in F. exact (F p I).
  Qed.
  Lemma listed_sound : forall l, Forall (sound E) l -> all_sound (parts l).
  Proof. intros l F w x I. apply parts_child in I. rewrite Forall_forall in F. exact (F x I). Qed.
  Lemma tables_sound : forall l, Forall tlt l -> all_sound (tables_shown l).
  Proof.
    intros l F w x I. apply tables_child in I. apply in_flat_map in I. destruct I as [t [I J]]. rewrite Forall_forall in F. specialize (F t I).
    unfold PfCarry.tlt in F. rewrite Forall_forall in F. exact (F x J).
  Qed.
  Lemma app_sound : forall l m, all_sound l -> all_sound m -> all_sound (l ++ m).
  Proof. intros l m A B w x I. apply in_app_or in I. destruct I as [I|I]; [exact (A w x I)|exact (B w x I)]. Qed.
  Lemma within_sound : forall y x, within y x -> sound E x -> sound E y.
  Proof. intros y x W. induction W as [|v x w T I W IH]; [auto|]. intros S. apply IH. exact (sound_child _ _ S T I). Qed.
  Lemma joins_sound : forall b ts e, Forall tlt ts -> ~ found_joins (EB b) ts e.
  Proof.
    intros b ts e F [t [j [T [J X]]]]. rewrite Forall_forall in F. specialize (F t T). unfold PfCarry.tlt in F. rewrite Forall_forall in F.
    assert (V : forall x, In x (join_vals j) -> sound E x).
    { intros x I. apply F. unfold table_vals. right. right. apply in_flat_map. exists j. auto. }
    destruct X as [[w [x [I P]]]|[x [y [I [W [S R]]]]]].
    - apply (sound_printed b w x e); [|exact P]. apply V. exact (join_shown_vals _ _ _ I).
    - destruct (sound_text b y) as [s Q]; [|congruence]. exact (within_sound _ _ W (V x I)).
  Qed.
  Definition out_sound (q : selq val) : Prop := forall x, In x (out_vals (s_out q)) -> sound E x.
  Lemma out_kept : forall W q op, out_sound q -> sel_given (sound E) op -> out_sound (fst (sel_step W q op)).
  Proof.
    intros W q op O G. destruct op; try exact O. cbn [sel_given sel_step] in *. unfold lift1, set_out. destruct (negb _); [exact O|]. cbn [fst].
    unfold out_sound in *. cbn [s_out with_out]. intros x I. destruct (s_out q) as [of ff lf ef]. unfold out_vals in *. cbn [o_file o_fields o_lines o_encl] in *.
    destruct f; cbn [o_file o_fields o_lines o_encl opt_vals] in I; rewrite ?in_app_iff in I; cbn [In] in I;
      repeat (destruct I as [I|I]); subst; try assumption; try (destruct I; fail); apply O; rewrite ?in_app_iff; auto.
  Qed.
  Lemma select_kept : forall H, Forall (sel_given (sound E)) (map snd H) ->
    PfCarry.tl_sel (sound E) (calls sel_step empty_select (program E H)) /\ out_sound (calls sel_step empty_select (program E H)).
  Proof.
    intros H F. apply (program_keeps _ _ sel_step (fun q => PfCarry.tl_sel (sound E) q /\ out_sound q) (sel_given (sound E))); [|exact F|split; [repeat split; constructor|intros x []]].
    intros W p op [A O] G. split; [|exact (out_kept W p op O G)].
    exact (PfCarry.sel_tl (sound E) sound_leaf sound_child sound_parts sound_listed W p op A G).
  Qed.
  Lemma select_renders : forall H b, Forall (sel_given (sound E)) (map snd H) ->
    exists t, text (EB b) (VSelect (calls sel_step empty_select (program E H))) = Ok t.
  Proof.
    intros H b F. set (q := calls sel_step empty_select (program E H)).
    pose proof (select_kept H F) as I. fold q in I.
    destruct I as [[I1 [I2 [I3 [I4 [I5 I6]]]]] O].
    destruct (text (EB b) (VSelect q)) as [t|e] eqn:T; [eauto|]. exfalso. revert T.
    apply text_step; [| |discriminate|discriminate|discriminate|discriminate]; [|now apply joins_sound].
    apply not_found. cbn [shown]. repeat apply app_sound; [now apply names_sound|now apply sorted_sound|now apply listed_sound| |now apply sorted_sound|now apply tables_sound|now apply listed_sound].
    intros w x J. apply O. exact (in_out _ _ _ J).
  Qed.
  Lemma update_renders : forall H b, Forall (upd_given (sound E)) (map snd H) ->
    (exists t, text (EB b) (VUpdate (calls upd_step empty_update (program E H))) = Ok t) \/
    text (EB b) (VUpdate (calls upd_step empty_update (program E H))) = Err EConfirmUpdate.
  Proof.
    intros H b F. set (q := calls upd_step empty_update (program E H)).
    assert (I : PfCarry.tl_upd (sound E) q).
    { apply (program_keeps _ _ upd_step (PfCarry.tl_upd (sound E)) (upd_given (sound E))); [|exact F|repeat split; constructor].
      exact (PfCarry.upd_tl (sound E) sound_leaf sound_child sound_parts sound_listed). }
    destruct I as [I1 [I2 I3]]. destruct (text (EB b) (VUpdate q)) as [t|e] eqn:T; [eauto|]. right. revert T.
    apply text_step; [| |discriminate|discriminate|intros; congruence|discriminate]; intros X; exfalso; revert X; [|now apply joins_sound].
    apply not_found. cbn [shown]. repeat apply app_sound; [now apply tables_sound|now apply listed_sound|now apply listed_sound].
  Qed.
  Lemma delete_renders : forall H b, Forall (del_given (sound E)) (map snd H) ->
    (exists t, text (EB b) (VDelete (calls del_step empty_delete (program E H))) = Ok t) \/
    text (EB b) (VDelete (calls del_step empty_delete (program E H))) = Err EConfirmDelete.
  Proof.
    intros H b F. set (q := calls del_step empty_delete (program E H)).
    assert (I : PfCarry.tl_del (sound E) q).
    { apply (program_keeps _ _ del_step (PfCarry.tl_del (sound E)) (del_given (sound E))); [|exact F|repeat split; constructor].
      exact (PfCarry.del_tl (sound E) sound_leaf sound_child sound_parts sound_listed). }
    destruct I as [I1 [I2 I3]]. destruct (text (EB b) (VDelete q)) as [t|e] eqn:T; [eauto|]. right. revert T.
    apply text_step; [| |discriminate|discriminate|discriminate|intros; congruence]; intros X; exfalso; revert X.
    - apply not_found. cbn [shown]. repeat apply app_sound; [now apply tables_sound|now apply tables_sound|now apply listed_sound].
    - apply joins_sound. cbn [tables_of]. apply Forall_app. split; assumption.
  Qed.
  (** Every row of an insert assigns to named columns. *)
  Definition named_part (p : val) : Prop := exists c v, p = VValue (VStr c) v.
  Definition named_rows (q : insq val) : Prop := Forall (Forall named_part) (i_rows q).
  Lemma fold_named : forall W items ps, Forall named_part ps -> Forall (fun it => is_sql (fst (nth2 it)) = false) items ->
    Forall named_part (fst (foldE (fun s it => let (c, v) := nth2 it in commit s (do x <- mk_value c v; append_unique (w_eq W) s x)) ps items)).
  Proof.
    intros W items. induction items as [|it items IH]; intros ps P F; [exact P|]. inversion F as [|? ? N F']; subst. cbn [foldE].
    destruct (nth2 it) as [c v]. cbn [fst] in N.
    assert (X : Forall named_part (fst (commit ps (do x <- mk_value c v; append_unique (w_eq W) ps x)))).
    { unfold mk_value. destruct (check_type [Value.TStr] c) eqn:C; cbn [negb bind]; [|exact P]. destruct (check_type value_types v); cbn [negb bind]; [|exact P].
      unfold append_unique. match goal with |- context [bind ?y _] => destruct y as [[]|]; cbn [bind commit fst] end; try exact P.
      apply Forall_app. split; [exact P|]. constructor; [|constructor]. destruct c; try discriminate N; try discriminate C; try (destruct k; discriminate C). eexists _, _. reflexivity. }
    destruct (commit ps _) as [s [u|e]]; cbn [fst] in *; [exact (IH s X F')|exact X].
  Qed.
  Lemma rows_named : forall W q op, named_rows q -> named_columns op -> named_rows (fst (ins_step W q op)).
  Proof.
    intros W q op R N. unfold named_rows in *. destruct q as [rp ig tabs rows dup cf upd]. cbn [i_rows] in R. destruct op; try exact R.
    - cbn [ins_step named_columns] in *. unfold lift1, rows_add. destruct N as [K [S N]].
      assert (X : Forall named_part (fst (values_set W [] args kwds))).
      { assert (Y : Forall named_part (fst (match parse_args W pair_opts args kwds with
           | Err e => ([], Err e)
           | Ok items => foldE (fun s it => let (c, v) := nth2 it in commit s (do x <- mk_value c v; append_unique (w_eq W) s x)) [] items end))).
        { destruct (pair_contract W args kwds K) as [[ps [P Q]]|[Q _]]; rewrite Q; [|constructor].
          apply fold_named; [constructor|]. specialize (N ps P). clear - N. induction N as [|[c v] ps N _ IH]; constructor; [exact N|exact IH]. }
        unfold values_set. destruct args as [|a [|? ?]]; try exact Y. destruct kwds; try exact Y. rewrite (S a eq_refl). exact Y. }
      destruct (values_set W [] args kwds) as [ps [u|e]]; cbn [fst] in *; [|exact R].
      cbn [i_rows]. apply Forall_app. split; [exact R|]. constructor; [exact X|constructor].
    - cbn [ins_step].
      destruct (supports_on_duplicate_key_update _).
      + destruct (values_set W dup args kwds) as [d [u|e]]; [|exact R].
        destruct (supports_on_conflict_do_update _).
        * destruct (conflict_set W (cf, upd) args kwds) as [[c p] [u'|e]]; [|exact R].
          destruct (supports_replace_into _); [destruct (_ || _)|]; exact R.
        * destruct (supports_replace_into _); [destruct (_ || _)|]; exact R.
      + destruct (supports_on_conflict_do_update _).
        * destruct (conflict_set W (cf, upd) args kwds) as [[c p] [u'|e]]; [|exact R].
          destruct (supports_replace_into _); [destruct (_ || _)|]; exact R.
        * destruct (supports_replace_into _); [destruct (_ || _)|]; exact R.
  Qed.
  Lemma insert_renders : forall H b, Forall (ins_given (sound E)) (map snd H) -> Forall named_columns (map snd H) ->
    exists t, text (EB b) (VInsert (calls ins_step empty_insert (program E H))) = Ok t.
  Proof.
    intros H b F N. set (q := calls ins_step empty_insert (program E H)).
    assert (I : PfCarry.tl_ins_all (sound E) q /\ named_rows q).
    { apply (program_keeps _ _ ins_step (fun q => PfCarry.tl_ins_all (sound E) q /\ named_rows q) (fun op => ins_given (sound E) op /\ named_columns op)).
      - intros W p op [A R] [G M]. split; [|exact (rows_named W p op R M)].
        exact (PfCarry.ins_tl (sound E) sound_leaf sound_child sound_parts W p op A G).
      - rewrite Forall_forall in *. intros op J. split; [exact (F op J)|exact (N op J)].
      - split; [repeat split; constructor|constructor]. }
    destruct I as [[[I1 I2] [I3 I4]] R]. destruct (text (EB b) (VInsert q)) as [t|e] eqn:T; [eauto|]. exfalso. revert T.
    apply text_step; [| |discriminate| |discriminate|discriminate].
    - apply not_found. cbn [shown]. repeat apply app_sound; [now apply listed_sound|now apply listed_sound|now apply tables_sound].
    - now apply joins_sound.
    - intros p Q X. injection Q as <-. unfold rows_str in X. apply bind_err in X. destruct X as [X|[cols [C X]]].
      + unfold all_columns in X. apply bind_err in X. destruct X as [X|[? [_ X]]]; [|discriminate]. apply mapM_err in X. destruct X as [p [J X]].
        apply in_concat in J. destruct J as [row [J K]]. unfold named_rows in R. rewrite Forall_forall in R. specialize (R row J). rewrite Forall_forall in R.
        destruct (R p K) as [c [v ->]]. discriminate X.
      + apply bind_err in X. destruct X as [X|[? [_ X]]]; [|discriminate]. apply mapM_err in X. destruct X as [row [J X]].
        unfold row_str in X. apply bind_err in X. destruct X as [X|[? [_ X]]]; [|discriminate]. apply mapM_err in X. destruct X as [c [_ X]].
        destruct (row_split row c) as [[V _]|[before [after [Q _]]]]; [rewrite V in X; discriminate|].
        destruct (sound_value b (row_value row c)) as [t V]; [|congruence]. rewrite Forall_forall in I2. specialize (I2 row J). rewrite Forall_forall in I2.
        apply (sound_child (VValue (VStr c) (row_value row c))); [|reflexivity|right; now left]. apply I2.
        set (rv := row_value row c) in *. clearbody rv. rewrite Q. apply in_or_app. right. now left.
  Qed.
End Sound.
Lemma stop_kinds : forall E f w v e, stops E f w v e -> In e [EInvalidArgument; EAttributeError; EConfirmUpdate; EConfirmDelete; EUnmodelled].
Proof.
  intros E f w v e S. induction S; try assumption; cbn [In]; auto 6.
  destruct p; cbn [no_column] in *; try (subst; auto 6; fail). destruct p1; subst; auto 6.
Qed.
