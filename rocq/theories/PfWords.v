(** Proofs: has() with a regular expression as the word. *)
From Coq Require Import Lia.
From Verif Require Import Base BaseFacts NumFmt Value Backend Eq Render RenderFacts ParseArgs Build Pattern Queries History
  SpecRead SpecRef SpecArgs SpecHistory SpecClauses SpecHas SpecPattern PfHistories PfArgs PfDedupe PfClauses PfStatements PfPattern PfHas.
Open Scope N_scope.

Fixpoint tr (p : pattern) : rxt :=
  match p with
  | Sym c => XOne (KChar c) | AnySym => XOne KAny | WordSym => XOne KWord | OtherSym => XOne KNotWord
  | Begin => XBol | End => XEol | Nothing => XEmpty
  | Then p q => XCat (tr p) (tr q)
  | Or p q => XAlt (tr p) (tr q)
  | Many p => XStar (tr p)
  | Once p => XCat (tr p) (XStar (tr p))
  | Maybe p => XAlt XEmpty (tr p)
  end.

(** ** What a pattern means *)

Lemma not_word : forall E c, wordc E c = false <-> ~ word_char E c.
Proof. intros E c. rewrite <- wordc_iff. symmetry. apply not_true_iff_false. Qed.
Lemma star_meets : forall E p, (forall a m b, mt E (tr p) (is_nilb a) m b -> meets E p a m b) ->
  forall st m b, mt E (XStar (tr p)) st m b -> forall a, st = is_nilb a -> meets E (Many p) a m b.
Proof.
  intros E p IH st m b H. remember (XStar (tr p)) as x eqn:Q. induction H as [| | | | | | |x' st r|x' st m n r H1 IH1 H2 IH2]; try discriminate; intros a ->.
  - constructor.
  - injection Q as ->. apply me_more; [now apply IH|]. apply IH2; [reflexivity|]. now rewrite nilb_app.
Qed.
Lemma tr_meets : forall E p a m b, mt E (tr p) (is_nilb a) m b -> meets E p a m b.
Proof.
  intros E p. induction p as [c| | | | | | |p IHp q IHq|p IHp q IHq|p IHp|p IHp|p IHp]; intros a m b H; cbn [tr] in H.
  - inversion H as [|k st d r K Q1 Q2 Q3 Q4| | | | | | |]; subst. cbn [in_class] in K. apply N.eqb_eq in K. subst. constructor.
  - inversion H as [|k st d r K Q1 Q2 Q3 Q4| | | | | | |]; subst. cbn [in_class] in K. constructor. intros ->. discriminate K.
  - inversion H as [|k st d r K Q1 Q2 Q3 Q4| | | | | | |]; subst. cbn [in_class] in K. constructor. now apply wordc_iff.
  - inversion H as [|k st d r K Q1 Q2 Q3 Q4| | | | | | |]; subst. cbn [in_class] in K. constructor. apply negb_true_iff in K. now apply not_word.
  - inversion H as [| |r Q1 Q2 Q3 Q4| | | | | |]; subst. destruct a; [constructor|discriminate].
  - inversion H as [| | |st r K Q1 Q2 Q3 Q4| | | | |]; subst. now constructor.
  - inversion H; subst. constructor.
  - apply cat_iff in H. destruct H as [m1 [m2 [-> [H1 H2]]]]. apply me_then; [now apply IHp|]. apply IHq. now rewrite nilb_app.
  - apply alt_iff in H. destruct H as [H|H]; [apply me_left; now apply IHp|apply me_right; now apply IHq].
  - apply (star_meets E p IHp _ _ _ H). reflexivity.
  - apply cat_iff in H. destruct H as [m1 [m2 [-> [H1 H2]]]]. apply me_once; [now apply IHp|]. apply (star_meets E p IHp _ _ _ H2). now rewrite nilb_app.
  - apply alt_iff in H. destruct H as [H|H]; [apply empty_iff in H; subst; constructor|apply me_take; now apply IHp].
Qed.
Lemma meets_tr : forall E p a m b, meets E p a m b -> mt E (tr p) (is_nilb a) m b.
Proof.
  intros E p a m b H. induction H; cbn [tr].
  - constructor. apply N.eqb_refl.
  - constructor. cbn [in_class]. apply negb_true_iff, N.eqb_neq. exact H.
  - constructor. now apply wordc_iff.
  - constructor. cbn [in_class]. apply negb_true_iff, not_word. exact H.
  - constructor.
  - now constructor.
  - constructor.
  - apply mt_cat; [assumption|]. now rewrite <- nilb_app.
  - now apply mt_left.
  - now apply mt_right.
  - constructor.
  - apply mt_more; [assumption|]. now rewrite <- nilb_app.
  - apply mt_cat; [assumption|]. now rewrite <- nilb_app.
  - apply mt_left. constructor.
  - now apply mt_right.
Qed.
Lemma tr_iff : forall E p a m b, mt E (tr p) (is_nilb a) m b <-> meets E p a m b.
Proof. intros E p a m b. split; [apply tr_meets|apply meets_tr]. Qed.

(** ** How a pattern is read *)

Definition adds (E : env) (w : str) (x : rxt) : Prop := forall f stk,
  exists f', x_run (at_text f stk) w = Ok (at_text f' stk) /\ xf_alts f' = xf_alts f /\ eqv E (x_seq f') (XCat (x_seq f) x).
Definition pushes (E : env) (w : str) (x : rxt) : Prop := forall f stk,
  exists y, x_run (at_text f stk) w = Ok (at_text (x_push f y XPlain) stk) /\ eqv E y x.
(** In a branch that is still empty. *)
Definition fills (E : env) (w : str) (x : rxt) : Prop := forall f stk, xf_last f = None -> xf_done f = XEmpty ->
  exists f', x_run (at_text f stk) w = Ok (at_text f' stk) /\ eqv E (x_total f') (match xf_alts f with Some y => XAlt y x | None => x end).
Lemma pushes_adds : forall E w x, pushes E w x -> adds E w x.
Proof.
  intros E w x H f stk. destruct (H f stk) as [y [R Q]]. exists (x_push f y XPlain). split; [exact R|]. split; [reflexivity|].
  rewrite seq_push. apply cat_eqv; [apply eqv_refl|exact Q].
Qed.
Lemma adds_fills : forall E w x, adds E w x -> fills E w x.
Proof.
  intros E w x H f stk L D. destruct (H f stk) as [f' [R [A Q]]]. exists f'. split; [exact R|]. unfold x_total. rewrite A.
  assert (X : eqv E (x_seq f') x). { eapply eqv_trans; [exact Q|]. unfold x_seq. rewrite L, D. apply cat_empty_l. }
  destruct (xf_alts f); [|exact X]. apply alt_eqv; [apply eqv_refl|exact X].
Qed.
Lemma fills_group : forall E w x, fills E w x -> pushes E (lit "(" ++ w ++ lit ")") x.
Proof.
  intros E w x H f stk. destruct (H x_new (f :: stk) eq_refl eq_refl) as [f' [R Q]]. exists (x_total f'). split; [|exact Q].
  rewrite run_app. change (x_run (at_text f stk) (lit "(")) with (Ok (at_text x_new (f :: stk))). cbn [bind]. rewrite run_app, R. reflexivity.
Qed.
Lemma repeat_adds : forall E w x c, pushes E w x -> In c [42; 43; 63] -> adds E (w ++ [c]) (x_repeat c x).
Proof.
  intros E w x c H I f stk. destruct (H f stk) as [y [R Q]].
  exists {| xf_alts := xf_alts f; xf_done := x_seq f; xf_last := Some (x_repeat c y, XRepeated) |}. split; [|split; [reflexivity|]].
  - rewrite run_app, R. cbn [bind]. destruct I as [<-|[<-|[<-|[]]]]; reflexivity.
  - unfold x_seq at 1. cbn [xf_last xf_done]. apply cat_eqv; [apply eqv_refl|]. destruct I as [<-|[<-|[<-|[]]]]; cbn [x_repeat N.eqb Pos.eqb].
    + apply star_eqv, Q.
    + apply cat_eqv; [exact Q|apply star_eqv, Q].
    + apply alt_eqv; [apply eqv_refl|exact Q].
Qed.
Lemma special_meta : forall c, existsb (N.eqb c) special = rx_meta c.
Proof. reflexivity. Qed.
Lemma sym_pushes : forall E p, is_sym p = true -> pushes E (written p) (tr p).
Proof.
  intros E p S f stk. exists (tr p). split; [|apply eqv_refl]. destruct p; try discriminate S; try reflexivity.
  cbn [written tr]. rewrite special_meta. destruct (rx_meta c) eqn:M.
  - apply escaped_step. apply escapable_iff. apply meta_iff in M. unfold ascii_alnum. unfold special in M. cbn in M. intuition (subst; lia).
  - cbn [x_run]. rewrite text_step by exact M. reflexivity.
Qed.
Lemma written_reads : forall E p, (is_or p = false -> adds E (written p) (tr p)) /\ fills E (written p) (tr p).
Proof.
  intros E. assert (B : forall p, (is_or p = false -> adds E (written p) (tr p)) /\ fills E (written p) (tr p) -> adds E (brackets (is_or p) (written p)) (tr p)).
  { intros p [H1 H2]. destruct (is_or p); cbn [brackets]; [|now apply H1]. apply pushes_adds, fills_group, H2. }
  assert (A : forall p, (is_or p = false -> adds E (written p) (tr p)) /\ fills E (written p) (tr p) -> pushes E (brackets (negb (is_sym p)) (written p)) (tr p)).
  { intros p [_ H2]. destruct (is_sym p) eqn:S; cbn [brackets negb]; [now apply sym_pushes|]. apply fills_group, H2. }
  assert (F : forall p, (is_or p = false -> adds E (written p) (tr p)) -> is_or p = false -> (is_or p = false -> adds E (written p) (tr p)) /\ fills E (written p) (tr p)).
  { intros p H N. split; [exact H|]. apply adds_fills, H, N. }
  intros p. induction p as [c| | | | | | |p IHp q IHq|p IHp q IHq|p IHp|p IHp|p IHp]; try (apply F; [intros _|reflexivity]).
  - apply pushes_adds, sym_pushes. reflexivity.
  - apply pushes_adds, sym_pushes. reflexivity.
  - apply pushes_adds, sym_pushes. reflexivity.
  - apply pushes_adds, sym_pushes. reflexivity.
  - intros f stk. exists (x_push f XBol XAnchor). split; [reflexivity|]. split; [reflexivity|apply eqv_refl].
  - intros f stk. exists (x_push f XEol XAnchor). split; [reflexivity|]. split; [reflexivity|apply eqv_refl].
  - intros f stk. exists f. split; [reflexivity|]. split; [reflexivity|apply eqv_sym, cat_empty_r].
  - cbn [written tr]. intros f stk. destruct (B p IHp f stk) as [f1 [R1 [A1 Q1]]]. destruct (B q IHq f1 stk) as [f2 [R2 [A2 Q2]]].
    exists f2. rewrite run_app, R1. split; [exact R2|]. split; [congruence|]. eapply eqv_trans; [exact Q2|]. eapply eqv_trans; [|apply cat_assoc].
    apply cat_eqv; [exact Q1|apply eqv_refl].
  - split; [discriminate|]. cbn [written tr]. intros f stk L D. destruct IHp as [_ Hp]. destruct (Hp f stk L D) as [f1 [R1 Q1]].
    destruct (B q IHq {| xf_alts := Some (x_total f1); xf_done := XEmpty; xf_last := None |} stk) as [f2 [R2 [A2 Q2]]].
    exists f2. rewrite run_app, R1. cbn [bind]. rewrite run_app.
    change (x_run (at_text f1 stk) (lit "|")) with (Ok (at_text {| xf_alts := Some (x_total f1); xf_done := XEmpty; xf_last := None |} stk)). cbn [bind].
    split; [exact R2|]. unfold x_total at 1. rewrite A2. cbn [xf_alts].
    assert (X : eqv E (x_seq f2) (tr q)) by (eapply eqv_trans; [exact Q2|apply cat_empty_l]).
    destruct (xf_alts f) as [y|].
    + eapply eqv_trans; [|apply alt_assoc]. apply alt_eqv; assumption.
    + apply alt_eqv; assumption.
  - cbn [written tr]. change (XStar (tr p)) with (x_repeat 42 (tr p)). apply repeat_adds; [now apply A|simpl; tauto].
  - cbn [written tr]. change (XCat (tr p) (XStar (tr p))) with (x_repeat 43 (tr p)). apply repeat_adds; [now apply A|simpl; tauto].
  - cbn [written tr]. change (XAlt XEmpty (tr p)) with (x_repeat 63 (tr p)). apply repeat_adds; [now apply A|simpl; tauto].
Qed.
Lemma one_word_adds : forall E p, adds E (one_word p) (tr p).
Proof.
  intros E p. destruct (written_reads E p) as [H1 H2]. unfold one_word. destruct (is_or p); cbn [brackets]; [|now apply H1]. apply pushes_adds, fills_group, H2.
Qed.
Lemma free_before_iff : forall E a, free_before E a <-> starts_word E a.
Proof. intros E a. split; intros H x c Q; apply not_word, (H x c Q). Qed.
Lemma free_after_iff : forall E b, free_after E b <-> ends_word E b.
Proof. intros E b. split; intros H c x Q; apply not_word, (H c x Q). Qed.

(** ** has() of a part *)

Lemma has_one : forall E p t, answers (has_text E (one_word p) (Ok t)) (found E p t).
Proof.
  intros E p t. unfold has_text. cbn [bind]. destruct (one_branch E (one_word p) (tr p) (fun f => one_word_adds E p f [])) as [y [-> S]]. cbn [bind].
  apply bool_answers. rewrite S. unfold found. split; intros [a [m [b [H1 [H2 [H3 H4]]]]]]; exists a, m, b; (split; [exact H1|]).
  - split; [now apply free_before_iff|]. split; [now apply tr_iff|now apply free_after_iff].
  - split; [now apply free_before_iff|]. split; [now apply tr_iff|now apply free_after_iff].
Qed.
Lemma has_two : forall E p q t, answers (has_text E (one_word p ++ lit "|" ++ one_word q) (Ok t)) (found_start E p t \/ found_end E q t).
Proof.
  intros E p q t. unfold has_text. cbn [bind].
  destruct (two_branches E (one_word p) (one_word q) (tr p) (tr q) (fun f => one_word_adds E p f []) (fun f => one_word_adds E q f [])) as [y [-> S]]. cbn [bind].
  apply bool_answers. rewrite S. unfold found_start, found_end. split; (intros [[a [m [b [H1 [H2 H3]]]]]|[a [m [b [H1 [H2 H3]]]]]]; [left|right]); exists a, m, b; (split; [exact H1|]).
  - split; [now apply free_before_iff|now apply tr_iff].
  - split; [now apply tr_iff|now apply free_after_iff].
  - split; [now apply free_before_iff|now apply tr_iff].
  - split; [now apply tr_iff|now apply free_after_iff].
Qed.
Lemma has_star : forall E t, has_text E (lit "*") (Ok t) = Ok true.
Proof.
  intros E t. unfold has_text. cbn [bind].
  change (x_parse (lit "([^\w]|^)" ++ lit "*" ++ lit "([^\w]|$)")) with (Ok (XCat (XCat XEmpty (XStar boundary_l)) boundary_r)). cbn [bind]. f_equal.
  apply x_search_iff. exists t, [], []. rewrite !app_nil_r. split; [reflexivity|]. apply (mt_cat E _ _ _ [] [] []); [apply (mt_cat E _ _ _ [] [] []); constructor|].
  apply right_iff. auto.
Qed.
Lemma plain_run : forall w f stk, plain w -> exists f', x_run (at_text f stk) w = Ok (at_text f' stk).
Proof.
  induction w as [|c w IH]; intros f stk P; [eexists; reflexivity|]. inversion P as [|? ? P1 P2]; subst. cbn [x_run].
  rewrite text_step; [cbn [bind]; now apply IH|]. apply not_true_is_false. intros M. apply meta_iff in M. contradiction.
Qed.
Lemma has_count : forall E w t, plain w -> has_text E (w ++ lit "(*)") (Ok t) = Err EException.
Proof.
  intros E w t P. unfold has_text. cbn [bind]. unfold x_parse. fold (at_text x_new []). rewrite run_app, run_left. cbn [bind].
  destruct (plain_run w (x_push x_new boundary_l XPlain) [] P) as [f R]. rewrite <- app_assoc, run_app, R. reflexivity.
Qed.

(** The answer is that of the part's text. *)
Lemma part_equal : forall E set t cl v w, part_ctx set t = Ok (spaced cl) -> asked_word E v w ->
  (cl <> [] -> query_has (pure_world E) (Some (set, t, HPart)) v = has_text E w (Ok (words cl))) /\
  (cl = [] -> query_has (pure_world E) (Some (set, t, HPart)) v = Ok false).
Proof.
  intros E set t cl v w H [Tr Tx]. apply part_words in H. destruct H as [[-> [N ->]]|[-> ->]]; cbn [query_has].
  - split; [|contradiction]. intros _. rewrite Tr. cbn [part_has w_str pure_world]. rewrite Tx. reflexivity.
  - split; [now intros X|reflexivity].
Qed.
Lemma select_equal : forall E H n l v w, let q := calls sel_step empty_select H in select_part E (map snd H) q n l -> asked_word E v w ->
  (l <> [] -> sel_has (pure_world E) q n v = has_text E w (Ok (words l))) /\ (l = [] -> sel_has (pure_world E) q n v = Ok false).
Proof.
  intros E H n l v w q P Aw. destruct (select_part_text E H n l P) as [set [t [S C]]]. fold q in S.
  destruct (part_equal E set t l v w C Aw) as [A1 A2]. unfold sel_has. cbn [w_env w_str pure_world]. rewrite S. destruct Aw as [Tr _].
  split; intros N; [rewrite (A1 N)|rewrite (A2 N)]; cbn [bind].
  - destruct (has_text E w (Ok (words l))) as [[]|e]; cbn [bind]; [reflexivity|now rewrite Tr|reflexivity].
  - now rewrite Tr.
Qed.
Lemma update_equal : forall E q n l v w, update_part E q n l -> asked_word E v w ->
  (l <> [] -> upd_has (pure_world E) q n v = has_text E w (Ok (words l))) /\ (l = [] -> upd_has (pure_world E) q n v = Ok false).
Proof.
  intros E q n l v w P Aw. unfold upd_has. cbn [w_env w_str pure_world].
  assert (X : exists set t, upd_part E (text E) q n = Some (set, t, HPart) /\ part_ctx set t = Ok (spaced l)).
  { inversion P as [l' C|l' C|l' C]; subst; do 2 eexists; (split; [reflexivity|]).
    - apply (part_of _ _ _ (tables_part E (u_tabs q)) C).
    - apply (part_of _ _ _ (values_part E [] (u_vals q)) C).
    - apply (part_of _ _ _ (fun y => cond_part E (lit "WHERE") (u_where q) y ltac:(discriminate)) C). }
  destruct X as [set [t [-> C]]]. now apply part_equal.
Qed.
Lemma delete_equal : forall E q n l v w, delete_part E q n l -> asked_word E v w ->
  (l <> [] -> del_has (pure_world E) q n v = has_text E w (Ok (words l))) /\ (l = [] -> del_has (pure_world E) q n v = Ok false).
Proof.
  intros E q n l v w P Aw. unfold del_has. cbn [w_env w_str pure_world].
  assert (X : exists set t, del_part E (text E) q n = Some (set, t, HPart) /\ part_ctx set t = Ok (spaced l)).
  { inversion P as [l' C|l' C|l' C]; subst; do 2 eexists; (split; [reflexivity|]).
    - apply (part_of _ _ _ (tables_part E (d_tabs q)) C).
    - apply (part_of _ _ _ (tables_part E (d_refs q)) C).
    - apply (part_of _ _ _ (fun y => cond_part E (lit "WHERE") (d_where q) y ltac:(discriminate)) C). }
  destruct X as [set [t [-> C]]]. now apply part_equal.
Qed.
Lemma insert_equal : forall E q n l v w, insert_part E q n l -> asked_word E v w ->
  (l <> [] -> ins_has (pure_world E) q n v = has_text E w (Ok (words l))) /\ (l = [] -> ins_has (pure_world E) q n v = Ok false).
Proof.
  intros E q n l v w P Aw. unfold ins_has. cbn [w_env w_str pure_world].
  assert (X : seqb n (lit "keyword") = false /\ exists set t, ins_part E (text E) q n = Some (set, t, HPart) /\ part_ctx set t = Ok (spaced l)).
  { inversion P as [l' C|l' C|l' C|c l' CC C]; subst; (split; [reflexivity|]); do 2 eexists; (split; [reflexivity|]).
    - apply (part_of _ _ _ (tables_part E (i_tabs q)) C).
    - apply (part_of _ _ _ (rows_part E (i_rows q)) C).
    - apply (part_of _ _ _ (values_part E (lit "ON DUPLICATE KEY UPDATE") (i_dup q)) C).
    - assert (K : conflict_keyword E (i_conflict q) ++ [c_sp] = lit "ON CONFLICT (" ++ c ++ lit ") DO UPDATE ").
      { unfold conflict_keyword, conflict_text in *. destruct (i_conflict q) as [s|].
        - unfold name_text in CC. rewrite text_R in CC. injection CC as <-. rewrite <- !app_assoc. reflexivity.
        - subst c. reflexivity. }
      apply values_part. exists l. split; [|reflexivity]. replace (is_nilb (conflict_keyword E (i_conflict q))) with false by reflexivity. rewrite K. exact C. }
  destruct X as [-> [set [t [-> C]]]]. now apply part_equal.
Qed.
(** has() of a part of a statement of any kind. *)
Lemma asked_equal : forall E n l v w r, has_asked E n l v r -> asked_word E v w ->
  (l <> [] -> r = has_text E w (Ok (words l))) /\ (l = [] -> r = Ok false).
Proof.
  intros E n l v w r H Aw. destruct H as [H n l v P|q n l v P|q n l v P|q n l v P].
  - now apply select_equal.
  - now apply update_equal.
  - now apply delete_equal.
  - now apply insert_equal.
Qed.
Lemma asked_answers : forall E n l v w r P, has_asked E n l v r -> asked_word E v w -> answers (has_text E w (Ok (words l))) P -> answers r (l <> [] /\ P).
Proof.
  intros E n l v w r P H Aw A. destruct (asked_equal E n l v w r H Aw) as [H1 H2]. destruct l as [|x l].
  - rewrite (H2 eq_refl). right. split; [reflexivity|]. tauto.
  - rewrite H1 by discriminate. destruct A as [[-> A]|[-> A]]; [left|right]; split; try reflexivity; [|tauto]. split; [discriminate|exact A].
Qed.
Lemma one_has : forall E n l v p r, has_asked E n l v r -> asked_word E v (one_word p) -> answers r (l <> [] /\ found E p (words l)).
Proof. intros E n l v p r H Aw. apply (asked_answers E n l v _ r _ H Aw), has_one. Qed.
Lemma two_has : forall E n l v p q r, has_asked E n l v r -> asked_word E v (one_word p ++ lit "|" ++ one_word q) ->
  answers r (l <> [] /\ (found_start E p (words l) \/ found_end E q (words l))).
Proof. intros E n l v p q r H Aw. apply (asked_answers E n l v _ r _ H Aw), has_two. Qed.
Lemma star_has : forall E n l v r, has_asked E n l v r -> asked_word E v (lit "*") -> answers r (l <> []).
Proof.
  intros E n l v r H Aw. destruct (asked_equal E n l v _ r H Aw) as [H1 H2]. destruct l as [|x l].
  - right. split; [now apply H2|]. tauto.
  - left. split; [|discriminate]. rewrite H1 by discriminate. apply has_star.
Qed.
Lemma count_has : forall E n l v w r, has_asked E n l v r -> plain w -> asked_word E v (w ++ lit "(*)") -> l <> [] -> r = Err EException.
Proof. intros E n l v w r H P Aw N. destruct (asked_equal E n l v _ r H Aw) as [H1 _]. rewrite (H1 N). now apply has_count. Qed.
(** The options: the word in upper case. *)
Lemma options_has : forall E H v w p, let q := calls sel_step empty_select H in asked_word E v w -> supper E w = one_word p ->
  answers (sel_has (pure_world E) q (lit "select_options") v) (select_options (map snd H) <> [] /\ found E p (words (select_options (map snd H)))).
Proof.
  intros E H v w p q [Tr Tx] U. destruct (options_words H) as [T S]. fold q in T, S. unfold sel_has. cbn [w_env w_str pure_world].
  change (sel_part E (text E) q (lit "select_options")) with (Some (selopts_set (s_opts q), Ok (selopts_str (s_opts q)), HOptions)).
  rewrite T. cbn [query_has]. destruct (selopts_set (s_opts q)).
  - rewrite Tr. cbn [part_has pure_world w_str]. rewrite Tx. cbn [bind w_env pure_world]. rewrite U.
    destruct (has_one E p (words (select_options (map snd H)))) as [[-> W]|[-> W]]; cbn [bind]; [left|right]; split; try reflexivity; try tauto.
  - cbn [bind]. rewrite Tr. right. split; [reflexivity|]. intros [X _]. apply S in X. discriminate.
Qed.
