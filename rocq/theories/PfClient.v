(** Proofs: objects made by programs print and compare. *)
From Verif Require Import Base NumFmt Value Backend Eq Render ParseArgs Build Queries History
  SpecArgs SpecHistory SpecErrors SpecSame SpecFails SpecClient RenderFacts PfArgs PfErrors PfFails PfRenders.
From Verif Require PfCarry.
Open Scope N_scope.

Lemma args_all : forall (T : val -> Prop) a k, (forall y, In y (a ++ map snd k) -> T y) -> args_given T a k.
Proof.
  intros T a k A. split; apply Forall_forall.
  - intros x I. apply A, in_or_app. now left.
  - intros p I. apply A, in_or_app. right. now apply in_map.
Qed.
Lemma sel_all : forall (T : val -> Prop) op, (forall y, In y (sel_args op) -> T y) -> sel_given T op.
Proof. intros T op A. destruct op; cbn [sel_given sel_args] in *; try (now apply args_all); try (split; apply A; cbn; auto); apply A; now left. Qed.
Section Client.
  Context (E : env).
  Hypothesis prints_data : forall v, e_pystr E v <> None.
  Notation EB b := (with_be E b).
  Notation sound := (sound E).
  (** An SQL object whose printed parts are sound prints. *)
  Lemma printable_parts : forall v, is_sql v = true -> tables_of v = [] -> match v with VInsert _ | VUpdate _ | VDelete _ => False | _ => True end ->
    all_sound E (shown v) -> forall b, printable (EB b) v.
  Proof.
    intros v S T K A b. destruct (text (EB b) v) as [t|e] eqn:X; [exists t; exact X|]. exfalso. revert X.
    apply text_step; [now apply not_found| |congruence|intros q ->; destruct K|intros q ->; destruct K|intros q ->; destruct K].
    rewrite T. intros [t [j [[] _]]].
  Qed.
  Lemma textual_sound : forall v, textual_eq v = true -> all_sound E (shown v) -> sound v.
  Proof.
    intros v T A. constructor; [|intros k ->; discriminate T|congruence].
    intros S. apply printable_parts; try assumption; destruct v; try discriminate T; reflexivity || exact Logic.I.
  Qed.
  Lemma one_sound : forall w v, sound v -> all_sound E [(w, v)].
  Proof. intros w v S w' x [Q|[]]. now injection Q as _ <-. Qed.
  Lemma two_sound : forall w v w' v', sound v -> sound v' -> all_sound E [(w, v); (w', v')].
  Proof. intros w v w' v' S S' u x [Q|[Q|[]]]; now injection Q as _ <-. Qed.
  Lemma argument_sound : forall v, sound v -> all_sound E (argument v).
  Proof.
    intros v S. assert (N : all_sound E [(AsName, v)]) by now apply one_sound.
    destruct v; try exact N. destruct k; try exact N; intros w x I; apply in_map_iff in I; destruct I as [y [Q I]];
      injection Q as _ <-; exact (sound_child E _ _ S eq_refl I).
  Qed.
  Lemma conds_sound : forall b a k ps o, args_given sound a k -> conds_where (at_backend E b) KWhere [] a k = (ps, o) -> Forall sound ps.
  Proof.
    intros b a k ps o G H. pose proof (proj2 (PfCarry.where_alike sound (sound_leaf E) (sound_child E) (sound_parts E prints_data) (sound_listed E)
      (at_backend E b) (at_backend E b) KWhere [] a k (PfCarry.alike_refl _ _) (Forall_nil _) G)) as F. now rewrite H in F.
  Qed.
  Lemma columns_sound : forall b a cols o, Forall sound a -> columns_add (at_backend E b) [] a [] = (cols, o) -> Forall (PfCarry.tl2 sound) cols.
  Proof.
    intros b a cols o G H. pose proof (proj2 (PfCarry.columns_alike sound (sound_leaf E) (sound_child E)
      (at_backend E b) (at_backend E b) [] a [] (PfCarry.alike_refl _ _) (Forall_nil _) (Logic.conj G (Forall_nil _)))) as F. now rewrite H in F.
  Qed.
  (** Functions that can still be changed keep sound parts. *)
  Definition open_parts (v : val) : Prop :=
    match v with VAgg _ _ _ | VGroupConcat _ _ _ | VConvert _ _ => forall x, In x (children v) -> sound x | _ => True end.
  Definition solid (v : val) : Prop := sound v /\ open_parts v.
  Lemma agg_solid : forall k d v, sound v -> solid (VAgg k d v).
  Proof.
    intros k d v S. split; [apply textual_sound; [reflexivity|now apply argument_sound]|]. intros x [<-|[]]. exact S.
  Qed.
  Lemma convert_solid : forall v t, sound v -> solid (VConvert v t).
  Proof.
    intros v t S. split; [apply textual_sound; [reflexivity|now apply argument_sound]|]. intros x [<-|[]]. exact S.
  Qed.
  Lemma gc_solid : forall cols ords sep, Forall (PfCarry.tl2 sound) cols -> Forall (PfCarry.tl1 sound) ords -> sound sep -> solid (VGroupConcat cols ords sep).
  Proof.
    intros cols ords sep C O S. split.
    - apply textual_sound; [reflexivity|]. cbn [shown]. apply app_sound; [now apply names_sound|]. apply app_sound; [now apply sorted_sound|].
      destruct (truthy sep); [now apply one_sound|intros w x []].
    - intros x I. cbn [children] in I. rewrite !in_app_iff in I. rewrite Forall_forall in C, O. destruct I as [I|[I|[<-|[]]]]; [| |exact S].
      + apply in_flat_map in I. destruct I as [p [I J]]. destruct (C p I) as [A B]. destruct J as [<-|[<-|[]]]; assumption.
      + apply in_map_iff in I. destruct I as [p [<- I]]. exact (O p I).
  Qed.
  Lemma gc_open : forall cols ords sep, open_parts (VGroupConcat cols ords sep) ->
    Forall (PfCarry.tl2 sound) cols /\ Forall (PfCarry.tl1 sound) ords /\ sound sep.
  Proof.
    intros cols ords sep O. cbn [open_parts children] in O. split; [|split].
    - apply Forall_forall. intros p I. split; apply O, in_or_app; left; apply in_flat_map; exists p; cbn; auto.
    - apply Forall_forall. intros p I. apply O, in_or_app. right. apply in_or_app. left. now apply in_map.
    - apply O, in_or_app. right. apply in_or_app. right. now left.
  Qed.
  Lemma none_sound : sound VNone. Proof. apply sound_leaf; [reflexivity|reflexivity|exact Logic.I]. Qed.
  Lemma select_sound : forall H, Forall (sel_given sound) (map snd H) -> sound (VSelect (calls sel_step empty_select (program E H))).
  Proof.
    intros H F. constructor; [intros _ b; exact (select_renders E prints_data H b F)|discriminate|]. intros _ x I.
    destruct (select_kept E prints_data H F) as [[I1 [I2 [I3 [I4 [I5 I6]]]]] O]. cbn [children] in I. unfold sel_vals in I.
    rewrite !in_app_iff in I. rewrite Forall_forall in I1, I2, I3, I4, I5, I6.
    destruct I as [I|[I|[I|[I|[I|[I|I]]]]]].
    - apply in_flat_map in I. destruct I as [p [I J]]. destruct (I1 p I) as [A B]. destruct J as [<-|[<-|[]]]; assumption.
    - apply in_flat_map in I. destruct I as [t [I J]]. specialize (I2 t I). unfold PfCarry.tlt in I2. rewrite Forall_forall in I2. exact (I2 x J).
    - exact (I3 x I).
    - apply in_map_iff in I. destruct I as [p [<- I]]. exact (I4 p I).
    - exact (I5 x I).
    - apply in_map_iff in I. destruct I as [p [<- I]]. exact (I6 p I).
    - exact (O x I).
  Qed.
  Lemma client_solid : forall v, client E v -> solid v.
  Proof.
    intros v C. induction C as [v S L|k l N _ IH|items _ IK _ IV|b v x _ IH M|v _ IH|v _ IH|k v w _ IH M N|b a k x _ IH M|b a k x _ IH M|o u v x _ IU _ IV M
      |v _ IH|k v _ IH|k d v y _ IH|b a x _ IH M|b a x _ IH M|b f a _ IF _ IH|f v _ IF _ IH|b v ty x _ IH M|b f ty _ IF|H _ IH].
    - split; [|destruct v; try discriminate S; exact Logic.I]. apply sound_leaf; [exact S| |exact L]. destruct v; try discriminate S; try destruct L; reflexivity.
    - split; [|exact Logic.I]. apply sound_parts; [exact prints_data|exact N|]. intros x I. apply IH. exact I.
    - split; [|exact Logic.I]. constructor; [discriminate|discriminate|].
      intros _ x I. cbn [children] in I. apply in_flat_map in I. destruct I as [[k v] [I [<-|[<-|[]]]]]; [exact (proj1 (IK k v I))|exact (proj1 (IV k v I))].
    - unfold mk_custom in M. destruct (w_str _ v); [|discriminate]. injection M as <-. split; [|exact Logic.I]. apply textual_sound; [reflexivity|intros w x []].
    - split; [|exact Logic.I]. apply textual_sound; [reflexivity|]. apply one_sound, IH.
    - split; [|exact Logic.I]. apply textual_sound; [reflexivity|]. apply one_sound, IH.
    - split; [|exact Logic.I]. apply sound_parts; [exact prints_data|exact Logic.I|]. intros x [<-|[]]. destruct IH as [S _]. unfold mk_rel in M.
      destruct (check_type _ _); [|discriminate]. injection M as M.
      assert (L : forall l, py_list v = Some l -> l <> [] -> sound (VSeq KList l)).
      { intros l P Z. apply sound_parts; [exact prints_data|exact Z|]. pose proof (PfCarry.py_list_tl sound (sound_leaf E) (sound_child E) v l S P) as F.
        now rewrite Forall_forall in F. }
      destruct k; try (rewrite <- M; exact S); (destruct (py_list v) as [l|] eqn:P; [|rewrite <- M; exact S]); rewrite <- M; apply L; try reflexivity; intros ->; apply N; now rewrite <- M.
    - unfold mk_Q in M. destruct (conds_where _ _ _ _ _) as [ps [u|e]] eqn:W; [|discriminate]. injection M as <-.
      assert (F : Forall sound ps) by (refine (conds_sound b a k ps _ _ W); apply args_all; intros y I; apply IH; exact I).
      split; [|exact Logic.I]. constructor; [|discriminate|intros _; rewrite Forall_forall in F; exact F].
      intros S. apply printable_parts; [exact S|reflexivity|exact Logic.I|]. now apply listed_sound.
    - unfold mk_Not in M. destruct (conds_where _ _ _ _ _) as [ps [u|e]] eqn:W; [|discriminate]. injection M as <-.
      assert (F : Forall sound ps) by (refine (conds_sound b a k ps _ _ W); apply args_all; intros y I; apply IH; exact I).
      split; [|exact Logic.I]. apply textual_sound; [reflexivity|]. now apply listed_sound.
    - assert (X : (exists o', x = VCoC o' u v) \/ exists t, x = VUnion t u v).
      { unfold py_binop in M. destruct u; try discriminate M; try (destruct (is_condition v); [injection M as <-; left; eauto|discriminate]);
          unfold mk_union in M; destruct (check_type _ _); try discriminate M; destruct (check_type _ _); try discriminate M; injection M as <-; right; eauto. }
      destruct IU as [SU _], IV as [SV _]. destruct X as [[o' ->]|[t ->]]; (split; [|exact Logic.I]).
      + apply textual_sound; [reflexivity|]. now apply two_sound.
      + constructor; [|discriminate|intros _ x [<-|[<-|[]]]; assumption].
        intros S. apply printable_parts; [exact S|reflexivity|exact Logic.I|]. now apply two_sound.
    - split; [|exact Logic.I]. apply textual_sound; [reflexivity|]. apply one_sound, IH.
    - unfold mk_agg. apply agg_solid. destruct k; try apply IH. destruct (truthy v); [apply IH|]. apply sound_leaf; [reflexivity|reflexivity|exact Logic.I].
    - cbn [agg_distinct]. apply agg_solid. apply (proj2 IH). now left.
    - unfold mk_concat in M. destruct (columns_add _ _ _ _) as [cols [u|e]] eqn:W; [|discriminate]. injection M as <-.
      split; [|exact Logic.I]. apply textual_sound; [reflexivity|]. apply names_sound. refine (columns_sound b a cols _ _ W).
      apply Forall_forall. intros y I. apply IH. exact I.
    - unfold mk_group_concat in M. destruct (columns_add _ _ _ _) as [cols [u|e]] eqn:W; [|discriminate]. injection M as <-.
      apply gc_solid; [|constructor|exact none_sound]. refine (columns_sound b a cols _ _ W). apply Forall_forall. intros y I. apply IH. exact I.
    - destruct f; try exact IF. cbn [gc_order_by]. destruct (gc_open _ _ _ (proj2 IF)) as [C [O S]].
      assert (G : args_given sound a []) by (split; [apply Forall_forall; intros y I; apply IH; exact I|constructor]).
      pose proof (proj2 (PfCarry.orders_alike sound (sound_leaf E) (sound_child E) (at_backend E b) (at_backend E b) ords a [] (PfCarry.alike_refl _ _) O G)) as F.
      destruct (orders_add _ _ _ _) as [os r]. cbn [fst] in *. now apply gc_solid.
    - destruct f; try exact IF. cbn [gc_separator fst]. destruct (gc_open _ _ _ (proj2 IF)) as [C [O _]]. apply gc_solid; [exact C|exact O|apply IH].
    - unfold mk_convert in M. destruct (truthy ty); [|injection M as <-; apply convert_solid, IH]. cbn [convert_to] in M.
      destruct (w_str _ ty); cbn [bind commit] in M; [|discriminate]. injection M as <-. apply convert_solid, IH.
    - destruct f; try exact IF. cbn [convert_to]. destruct (w_str _ ty); cbn [bind commit fst]; [|exact IF]. apply convert_solid. apply (proj2 IF). now left.
    - split; [|exact Logic.I]. apply select_sound. apply Forall_forall. intros op I. apply in_map_iff in I. destruct I as [[b op'] [<- I]].
      apply sel_all. intros y J. exact (proj1 (IH b op' I y J)).
  Qed.
  Lemma client_sound : forall v, client E v -> sound v.
  Proof. intros v C. apply client_solid. exact C. Qed.
  Lemma client_prints : forall v b, client E v -> exists t, text (EB b) v = Ok t.
  Proof. intros v b C. apply sound_text; [exact prints_data|now apply client_sound]. Qed.
  Lemma client_compares : forall u v b, client E u -> client E v -> exists r, py_eq (EB b) u v = Ok r.
  Proof.
    intros u v b U V. destruct (py_eq (EB b) u v) as [r|e] eqn:Q; [eauto|]. exfalso. apply compare_err in Q. destruct Q as [x [W [S R]]].
    assert (X : sound x) by (destruct W as [W|W]; apply (within_sound E _ _ W); now apply client_sound).
    destruct (sound_text E prints_data b x X). congruence.
  Qed.
End Client.
Lemma sound_tame : forall E v, sound E v -> tame E v.
Proof.
  intros E v S. induction S as [v P N C IH]. constructor; [|exact IH]. intros Q b. left. exact (P Q b).
Qed.
Lemma given_sel : forall (T U : val -> Prop) op, (forall v, T v -> U v) -> sel_given T op -> sel_given U op.
Proof.
  intros T U op I. assert (A : forall a k, args_given T a k -> args_given U a k).
  { intros a k [F G]. split; [exact (Forall_impl _ I F)|]. apply (Forall_impl _ (P := fun p => T (snd p))); [auto|exact G]. }
  destruct op; cbn [sel_given]; auto; intros [? ?]; auto.
Qed.
Lemma given_upd : forall (T U : val -> Prop) op, (forall v, T v -> U v) -> upd_given T op -> upd_given U op.
Proof.
  intros T U op I. assert (A : forall a k, args_given T a k -> args_given U a k).
  { intros a k [F G]. split; [exact (Forall_impl _ I F)|]. apply (Forall_impl _ (P := fun p => T (snd p))); [auto|exact G]. }
  destruct op; cbn [upd_given]; auto.
Qed.
Lemma given_del : forall (T U : val -> Prop) op, (forall v, T v -> U v) -> del_given T op -> del_given U op.
Proof.
  intros T U op I. assert (A : forall a k, args_given T a k -> args_given U a k).
  { intros a k [F G]. split; [exact (Forall_impl _ I F)|]. apply (Forall_impl _ (P := fun p => T (snd p))); [auto|exact G]. }
  destruct op; cbn [del_given]; auto; try (intros [? ?]; auto; fail). intros F. exact (Forall_impl _ I F).
Qed.
Lemma given_ins : forall (T U : val -> Prop) op, (forall v, T v -> U v) -> ins_given T op -> ins_given U op.
Proof.
  intros T U op I. assert (A : forall a k, args_given T a k -> args_given U a k).
  { intros a k [F G]. split; [exact (Forall_impl _ I F)|]. apply (Forall_impl _ (P := fun p => T (snd p))); [auto|exact G]. }
  destruct op; cbn [ins_given]; auto.
Qed.
Section Programs.
  Context (E : env).
  Hypothesis prints_data : forall v, e_pystr E v <> None.
  Lemma clients_render : forall b,
    (forall H, Forall (upd_given (client E)) (map snd H) -> let q := VUpdate (calls upd_step empty_update (program E H)) in
       (exists t, text (with_be E b) q = Ok t) \/ text (with_be E b) q = Err EConfirmUpdate) /\
    (forall H, Forall (del_given (client E)) (map snd H) -> let q := VDelete (calls del_step empty_delete (program E H)) in
       (exists t, text (with_be E b) q = Ok t) \/ text (with_be E b) q = Err EConfirmDelete) /\
    (forall H, Forall (ins_given (client E)) (map snd H) -> Forall named_columns (map snd H) ->
       exists t, text (with_be E b) (VInsert (calls ins_step empty_insert (program E H))) = Ok t).
  Proof.
    intros b. split; [|split].
    - intros H F. apply (update_renders E prints_data). exact (Forall_impl _ (fun op => given_upd _ _ op (client_sound E prints_data)) F).
    - intros H F. apply (delete_renders E prints_data). exact (Forall_impl _ (fun op => given_del _ _ op (client_sound E prints_data)) F).
    - intros H F. apply (insert_renders E prints_data). exact (Forall_impl _ (fun op => given_ins _ _ op (client_sound E prints_data)) F).
  Qed.
  Lemma clients_raise : forall b,
    (forall H op q' e, Forall (sel_given (client E)) (map snd H) -> sel_given (client E) op -> regular_sel (with_be E b) op ->
       sel_step (pure_world (with_be E b)) (calls sel_step empty_select (program E H)) op = (q', Err e) -> invalid e) /\
    (forall H op q' e, Forall (upd_given (client E)) (map snd H) -> upd_given (client E) op -> regular_upd (with_be E b) op ->
       upd_step (pure_world (with_be E b)) (calls upd_step empty_update (program E H)) op = (q', Err e) -> invalid e) /\
    (forall H op q' e, Forall (del_given (client E)) (map snd H) -> del_given (client E) op -> regular_del (with_be E b) op ->
       del_step (pure_world (with_be E b)) (calls del_step empty_delete (program E H)) op = (q', Err e) -> invalid e) /\
    (forall H op q' e, Forall (ins_given (client E)) (map snd H) -> ins_given (client E) op -> regular_ins (with_be E b) op ->
       ins_step (pure_world (with_be E b)) (calls ins_step empty_insert (program E H)) op = (q', Err e) -> invalid e).
  Proof.
    intros b. assert (T : forall v, client E v -> tame E v) by (intros v C; apply sound_tame; now apply client_sound).
    destruct (PfCarry.object_exceptions E prints_data b) as [A [B [C D]]]. split; [|split; [|split]]; intros H op q' e F G.
    - exact (A H op q' e (Forall_impl _ (fun o => given_sel _ _ o T) F) (given_sel _ _ op T G)).
    - exact (B H op q' e (Forall_impl _ (fun o => given_upd _ _ o T) F) (given_upd _ _ op T G)).
    - exact (C H op q' e (Forall_impl _ (fun o => given_del _ _ o T) F) (given_del _ _ op T G)).
    - exact (D H op q' e (Forall_impl _ (fun o => given_ins _ _ o T) F) (given_ins _ _ op T G)).
  Qed.
End Programs.
