(** Proofs: has(). *)
From Coq Require Import Lia.
From Verif Require Import Base BaseFacts NumFmt Value Backend Eq Render RenderFacts ParseArgs Build Pattern Queries History
  SpecRead SpecRef SpecArgs SpecHistory SpecClauses SpecHas PfHistories PfArgs PfDedupe PfClauses PfStatements PfPattern.
Open Scope N_scope.

(** The characters that are not themselves in a Python regular expression. *)
Definition rx_meta (c : chr) : bool := existsb (fun m => c =? m) (lit "\.^$*+?{}[]|()").
(** One element of such an expression that stands for one character: the character, or
    None for the dot. *)
Definition rx_fits (p : option chr) (c : chr) : bool :=
  match p with Some x => x =? c | None => negb (c =? c_nl) end.
(** The elements of an expression without repetitions, groups, classes and anchors: the dot,
    a backslash before a character that is no ASCII letter or digit, other characters as
    themselves (CPython's sre_parse).  None: anything else. *)
Fixpoint rx_parse (w : str) : option (list (option chr)) :=
  match w with
  | [] => Some []
  | c :: r =>
      if c =? c_dot then match rx_parse r with Some l => Some (None :: l) | None => None end
      else if c =? c_bs then
        match r with
        | [] => None
        | d :: r' => if rx_escapable d then match rx_parse r' with Some l => Some (Some d :: l) | None => None end else None
        end
      else if rx_meta c then None
      else match rx_parse r with Some l => Some (Some c :: l) | None => None end
  end.
Fixpoint after_prefix (w : list (option chr)) (s : str) : option str :=
  match w, s with
  | [], _ => Some s
  | x :: w', y :: s' => if rx_fits x y then after_prefix w' s' else None
  | _, [] => None
  end.
(** re.search(r'([^\w]|^)' + w + r'([^\w]|$)', s) for such a w: queryparts.py:20-25. *)
Fixpoint word_search (E : env) (w : list (option chr)) (start : bool) (s : str) : bool :=
  (start && match after_prefix w s with
            | Some [] => true
            | Some (c :: _) => negb (wordc E c)
            | None => false
            end)
  || match s with
     | [] => false
     | c :: r => word_search E w (negb (wordc E c)) r
     end.
Lemma wordc_iff : forall E c, wordc E c = true <-> word_char E c.
Proof.
  intros E c. unfold wordc, word_char, ascii_word. destruct (N.ltb_spec c 128); [|intuition lia]. split.
  - intros H'. left. split; [exact H|]. rewrite !orb_true_iff, !andb_true_iff, !N.leb_le, N.eqb_eq in H'. lia.
  - intros [[_ X]|[X _]]; [|lia]. rewrite !orb_true_iff, !andb_true_iff, !N.leb_le, N.eqb_eq. lia.
Qed.
Lemma after_iff : forall p s r, after_prefix p s = Some r <-> exists m, s = m ++ r /\ Forall2 (fun x c => rx_fits x c = true) p m.
Proof.
  induction p as [|x p IH]; intros s r; cbn [after_prefix].
  - split; [intros H; injection H as ->; exists []; split; [reflexivity|constructor]|]. intros [m [-> F]]. inversion F. reflexivity.
  - destruct s as [|y s].
    + split; [discriminate|]. intros [m [H F]]. inversion F; subst. discriminate H.
    + destruct (rx_fits x y) eqn:X.
      * rewrite IH. split.
        -- intros [m [-> F]]. exists (y :: m). split; [reflexivity|]. constructor; assumption.
        -- intros [m [H F]]. inversion F as [|x' c' p' m' X' F' Q1 Q2]; subst. injection H as <- ->. exists m'. split; [reflexivity|exact F'].
      * split; [discriminate|]. intros [m [H F]]. inversion F as [|x' c' p' m' X' F' Q1 Q2]; subst. injection H as <- H. congruence.
Qed.
Definition starts_here (E : env) (p : list (option chr)) (s : str) : Prop :=
  exists m b, s = m ++ b /\ Forall2 (fun x c => rx_fits x c = true) p m /\ forall c x, b = c :: x -> ~ word_char E c.
Lemma here_iff : forall E p s, match after_prefix p s with Some [] => true | Some (c :: _) => negb (wordc E c) | None => false end = true <-> starts_here E p s.
Proof.
  intros E p s. destruct (after_prefix p s) as [b|] eqn:A.
  - pose proof A as A0. apply after_iff in A. destruct A as [m [A F]]. split.
    + intros H. exists m, b. split; [exact A|]. split; [exact F|]. intros c x ->. rewrite <- wordc_iff. destruct (wordc E c); [discriminate|intros; discriminate].
    + intros [m' [b' [E' [F' H]]]]. assert (B : after_prefix p s = Some b') by (apply after_iff; exists m'; auto).
      rewrite A0 in B. injection B as <-. destruct b as [|c b]; [reflexivity|].
      specialize (H c b eq_refl). rewrite <- wordc_iff in H. destruct (wordc E c); [now contradict H|reflexivity].
  - split; [discriminate|]. intros [m [b [H [F _]]]]. assert (B : after_prefix p s = Some b) by (apply after_iff; exists m; auto). congruence.
Qed.
Lemma search_iff : forall E p s start, word_search E p start s = true <->
  exists a m b, s = a ++ m ++ b /\ Forall2 (fun x c => rx_fits x c = true) p m /\ (a = [] -> start = true) /\ (forall x c, a = x ++ [c] -> ~ word_char E c) /\
              (forall c x, b = c :: x -> ~ word_char E c).
Proof.
  intros E p s. induction s as [|c s IH]; intros start; cbn [word_search]; rewrite orb_true_iff, andb_true_iff, here_iff.
  - split.
    + intros [[S [m [b [H1 [F H2]]]]]|H]; [|discriminate]. exists [], m, b. repeat split; auto. intros x d Q. destruct x; discriminate.
    + intros [a [m [b [H1 [F [H2 [H3 H4]]]]]]]. symmetry in H1. apply app_eq_nil in H1. destruct H1 as [-> H1].
      left. split; [auto|]. exists m, b. split; [now symmetry|]. split; [exact F|exact H4].
  - rewrite IH. split.
    + intros [[S [m [b [H1 [F H2]]]]]|[a [m [b [H1 [F [H2 [H3 H4]]]]]]]].
      * exists [], m, b. repeat split; auto. intros x d Q. destruct x; discriminate.
      * exists (c :: a), m, b. split; [now rewrite H1|]. split; [exact F|]. split; [discriminate|]. split; [|exact H4].
        intros x d Q. destruct a as [|d' a _] using rev_ind.
        -- destruct x as [|? x]; [injection Q as <-|destruct x; discriminate]. specialize (H2 eq_refl). rewrite <- wordc_iff.
           destruct (wordc E c); [discriminate|intros; discriminate].
        -- change (c :: a ++ [d']) with ((c :: a) ++ [d']) in Q. apply app_inj_tail in Q. destruct Q as [_ <-]. exact (H3 a d' eq_refl).
    + intros [a [m [b [H1 [F [H2 [H3 H4]]]]]]]. destruct a as [|d a].
      * left. split; [auto|]. exists m, b. split; [exact H1|]. split; [exact F|exact H4].
      * right. injection H1 as <- H1. exists a, m, b. split; [exact H1|]. split; [exact F|]. split; [|split; [|exact H4]].
        -- intros ->. specialize (H3 [] c eq_refl). rewrite <- wordc_iff in H3. destruct (wordc E c); [now contradict H3|reflexivity].
        -- intros x e ->. apply (H3 (c :: x) e). reflexivity.
Qed.
Lemma meta_iff : forall c, rx_meta c = true <-> In c special.
Proof.
  intros c. unfold rx_meta. rewrite existsb_exists. split.
  - intros [m [I Q]]. apply N.eqb_eq in Q. now subst.
  - intros I. exists c. split; [exact I|apply N.eqb_refl].
Qed.
Lemma escapable_iff : forall c, rx_escapable c = true <-> ~ ascii_alnum c.
Proof.
  intros c. unfold rx_escapable, ascii_alnum, ascii_word.
  rewrite !orb_true_iff, negb_true_iff, N.leb_le, N.eqb_eq, <- not_true_iff_false, !orb_true_iff, !andb_true_iff, !N.leb_le, N.eqb_eq. lia.
Qed.
(** The elements of a word, and what they stand for. *)
Lemma parse_cons : forall c r, rx_parse (c :: r) =
  if c =? c_dot then match rx_parse r with Some l => Some (None :: l) | None => None end
  else if c =? c_bs then
    match r with
    | [] => None
    | d :: r' => if rx_escapable d then match rx_parse r' with Some l => Some (Some d :: l) | None => None end else None
    end
  else if rx_meta c then None
  else match rx_parse r with Some l => Some (Some c :: l) | None => None end.
Proof. reflexivity. Qed.
Lemma parse_fits : forall w t, fits w t -> exists p, rx_parse w = Some p /\ Forall2 (fun x c => rx_fits x c = true) p t.
Proof.
  intros w t F. induction F as [|c w t N F [p [P1 P2]]|c w t N F [p [P1 P2]]|c w t N F [p [P1 P2]]].
  - exists []. split; [reflexivity|constructor].
  - exists (Some c :: p). rewrite parse_cons, P1.
    destruct (N.eqb_spec c c_dot) as [->|_]; [contradict N; vm_compute; tauto|].
    destruct (N.eqb_spec c c_bs) as [->|_]; [contradict N; vm_compute; tauto|].
    destruct (rx_meta c) eqn:M; [apply meta_iff in M; contradiction|].
    split; [reflexivity|]. constructor; [apply N.eqb_refl|exact P2].
  - exists (None :: p). rewrite parse_cons, P1. split; [reflexivity|]. constructor; [|exact P2]. cbn [rx_fits]. apply N.eqb_neq in N. unfold c_nl. now rewrite N.
  - exists (Some c :: p). rewrite parse_cons. cbn [c_dot c_bs N.eqb Pos.eqb]. rewrite P1. apply escapable_iff in N. rewrite N.
    split; [reflexivity|]. constructor; [apply N.eqb_refl|exact P2].
Qed.
Lemma fits_parse : forall n w p t, (List.length w <= n)%nat -> rx_parse w = Some p -> Forall2 (fun x c => rx_fits x c = true) p t -> fits w t.
Proof.
  induction n as [|n IH]; intros w p t L P F; destruct w as [|c w]; cbn [List.length] in L; try lia; try (injection P as <-; inversion F; constructor).
  rewrite parse_cons in P. destruct (N.eqb_spec c c_dot) as [->|_].
  - destruct (rx_parse w) as [p'|] eqn:R; [|discriminate]. injection P as <-. inversion F as [|x d p0 t0 X F0 Q1 Q2]; subst. apply f_dot; [|apply (IH w p'); [lia|exact R|exact F0]].
    cbn [rx_fits] in X. intros ->. discriminate X.
  - destruct (N.eqb_spec c c_bs) as [->|_].
    + destruct w as [|d w]; [discriminate|]. destruct (rx_escapable d) eqn:D; [|discriminate]. destruct (rx_parse w) as [p'|] eqn:R; [|discriminate]. injection P as <-.
      inversion F as [|x e p0 t0 X F0 Q1 Q2]; subst. cbn [rx_fits] in X. apply N.eqb_eq in X. subst e. cbn [List.length] in L.
      apply f_escaped; [apply escapable_iff, D|apply (IH w p'); [lia|exact R|exact F0]].
    + destruct (rx_meta c) eqn:M; [discriminate|]. destruct (rx_parse w) as [p'|] eqn:R; [|discriminate]. injection P as <-.
      inversion F as [|x e p0 t0 X F0 Q1 Q2]; subst. cbn [rx_fits] in X. apply N.eqb_eq in X. subst e.
      apply f_char; [intros I; apply meta_iff in I; congruence|apply (IH w p'); [lia|exact R|exact F0]].
Qed.
Lemma pattern_parse : forall w, simple_pattern w -> exists p, rx_parse w = Some p.
Proof. intros w [t F]. destruct (parse_fits w t F) as [p [P _]]. eauto. Qed.
Lemma occurs_search : forall E w p s, rx_parse w = Some p -> (word_search E p true s = true <-> occurs E w s).
Proof.
  intros E w p s P. rewrite search_iff. unfold occurs. split; intros [a [m [b H]]]; exists a, m, b.
  - destruct H as [H1 [H2 [_ [H3 H4]]]]. repeat split; auto. apply (fits_parse (List.length w) w p m (le_n _) P H2).
  - destruct H as [H1 [H2 [H3 H4]]]. repeat split; auto. destruct (parse_fits w m H2) as [p' [P' F]]. congruence.
Qed.
Lemma plain_fits : forall w t, plain w -> (fits w t <-> t = w).
Proof.
  intros w t P. split.
  - intros F. revert P. induction F as [|c w t N F IH|c w t N F IH|c w t N F IH]; intros P; inversion P as [|? ? P1 P2]; subst; try reflexivity.
    + now rewrite IH.
    + contradict P1. vm_compute. tauto.
    + contradict P1. vm_compute. tauto.
  - intros ->. induction P as [|c w P1 P2 IH]; constructor; assumption.
Qed.
Lemma plain_pattern : forall w, plain w -> simple_pattern w.
Proof. intros w P. exists w. apply plain_fits; [exact P|reflexivity]. Qed.
Lemma plain_occurs : forall E w s, plain w -> (occurs E w s <-> whole_word E w s).
Proof.
  intros E w s P. unfold occurs, whole_word. split.
  - intros [a [m [b [H1 [F H]]]]]. apply (plain_fits w m P) in F. subst m. exists a, b. tauto.
  - intros [a [b H]]. exists a, w, b. destruct H as [H1 H2]. split; [exact H1|]. split; [|exact H2]. apply plain_fits; [exact P|reflexivity].
Qed.
Lemma bool_answers : forall b P, (b = true <-> P) -> answers (Ok b) P.
Proof. intros [] P H; [left|right]; split; try reflexivity; [now apply H|]. intros X. apply H in X. discriminate. Qed.
(** A word of such elements is read as one branch. *)
Definition one_of (p : option chr) : xclass := match p with Some c => KChar c | None => KAny end.
Lemma text_step : forall f stk c, rx_meta c = false -> x_step (at_text f stk) c = Ok (at_text (x_push f (XOne (KChar c)) XPlain) stk).
Proof.
  intros f stk c H. unfold rx_meta in H. change (lit "\.^$*+?{}[]|()") with [92; 46; 94; 36; 42; 43; 63; 123; 125; 91; 93; 124; 40; 41] in H. cbn [existsb] in H.
  repeat (apply orb_false_iff in H; destruct H as [? H]). unfold x_step. cbn [x_mode at_text x_frame x_stack].
  repeat match goal with X : (c =? _) = false |- _ => rewrite X; clear X end. reflexivity.
Qed.
Lemma escaped_step : forall f stk c, rx_escapable c = true -> x_run (at_text f stk) [92; c] = Ok (at_text (x_push f (XOne (KChar c)) XPlain) stk).
Proof. intros f stk c H. cbn [x_run]. change (x_step (at_text f stk) 92) with (Ok {| x_mode := MEscape; x_frame := f; x_stack := stk |}). cbn [bind x_step x_mode]. now rewrite H. Qed.
Lemma fits_run : forall E n w p, (List.length w <= n)%nat -> rx_parse w = Some p -> forall f stk,
  exists f', x_run (at_text f stk) w = Ok (at_text f' stk) /\ xf_alts f' = xf_alts f /\ eqv E (x_seq f') (XCat (x_seq f) (fold_right (fun o x => XCat (XOne (one_of o)) x) XEmpty p)).
Proof.
  intros E n. induction n as [|n IH]; intros w p L P f stk; destruct w as [|c w]; cbn [List.length] in L; try lia.
  - injection P as <-. exists f. split; [reflexivity|]. split; [reflexivity|]. apply eqv_sym, cat_empty_r.
  - injection P as <-. exists f. split; [reflexivity|]. split; [reflexivity|]. apply eqv_sym, cat_empty_r.
  - assert (G : forall u v k p', c :: w = u ++ v -> x_run (at_text f stk) u = Ok (at_text (x_push f (XOne (one_of k)) XPlain) stk) -> (List.length v <= n)%nat ->
        rx_parse v = Some p' -> p = k :: p' ->
        exists f', x_run (at_text f stk) (c :: w) = Ok (at_text f' stk) /\ xf_alts f' = xf_alts f /\ eqv E (x_seq f') (XCat (x_seq f) (fold_right (fun o x => XCat (XOne (one_of o)) x) XEmpty p))).
    { intros u v k p' -> R Lv Pv ->. destruct (IH v p' Lv Pv (x_push f (XOne (one_of k)) XPlain) stk) as [f' [R' [A Q]]].
      exists f'. split; [rewrite run_app, R; exact R'|]. split; [exact A|]. eapply eqv_trans; [exact Q|]. rewrite seq_push. cbn [fold_right]. apply cat_assoc. }
    rewrite parse_cons in P. destruct (N.eqb_spec c c_dot) as [->|_].
    + destruct (rx_parse w) as [p'|] eqn:R; [|discriminate]. injection P as <-. apply (G [c_dot] w None p'); auto. lia.
    + destruct (N.eqb_spec c c_bs) as [->|_].
      * destruct w as [|d w]; [discriminate|]. destruct (rx_escapable d) eqn:D; [|discriminate]. destruct (rx_parse w) as [p'|] eqn:R; [|discriminate]. injection P as <-.
        apply (G [c_bs; d] w (Some d) p'); auto; [now apply escaped_step|]. cbn [List.length] in L. lia.
      * destruct (rx_meta c) eqn:M; [discriminate|]. destruct (rx_parse w) as [p'|] eqn:R; [|discriminate]. injection P as <-.
        apply (G [c] w (Some c) p'); auto; [|lia]. cbn [x_run]. rewrite text_step by exact M. reflexivity.
Qed.
Lemma one_of_iff : forall E o c, in_class E (one_of o) c = rx_fits o c.
Proof. intros E [x|] c; reflexivity. Qed.
Lemma chars_iff : forall E p st m r, mt E (fold_right (fun o x => XCat (XOne (one_of o)) x) XEmpty p) st m r <-> Forall2 (fun x c => rx_fits x c = true) p m.
Proof.
  intros E p. induction p as [|o p IH]; intros st m r; cbn [fold_right].
  - rewrite empty_iff. split; [intros ->; constructor|]. intros F. now inversion F.
  - rewrite cat_iff. split.
    + intros [m1 [m2 [-> [H1 H2]]]]. apply IH in H2. inversion H1 as [|k st' c r' K Q1 Q2 Q3 Q4| | | | | | |]; subst. rewrite one_of_iff in K. now constructor.
    + intros F. inversion F as [|x c p' m' X F' Q1 Q2]; subst. exists [c], m'. split; [reflexivity|]. split; [constructor; now rewrite one_of_iff|now apply IH].
Qed.
Lemma simple_search : forall E w p, rx_parse w = Some p -> exists y, x_parse (lit "([^\w]|^)" ++ w ++ lit "([^\w]|$)") = Ok y /\
  forall s, x_search E y true s = true <-> word_search E p true s = true.
Proof.
  intros E w p P. destruct (one_branch E w _ (fun f => fits_run E (List.length w) w p (le_n _) P f [])) as [y [Y S]].
  exists y. split; [exact Y|]. intros s. rewrite S, search_iff. split; intros [a [m [b H]]]; exists a, m, b.
  - destruct H as [H1 [H2 [H3 H4]]]. apply chars_iff in H3. repeat split; auto.
    + intros x c Q. rewrite <- wordc_iff. rewrite (H2 x c Q). discriminate.
    + intros c x Q. rewrite <- wordc_iff. rewrite (H4 c x Q). discriminate.
  - destruct H as [H1 [H2 [_ [H3 H4]]]]. split; [exact H1|]. split; [|split; [apply chars_iff, H2|]].
    + intros x c Q. specialize (H3 x c Q). rewrite <- wordc_iff in H3. now apply not_true_is_false.
    + intros c x Q. specialize (H4 c x Q). rewrite <- wordc_iff in H4. now apply not_true_is_false.
Qed.
Lemma has_text_answers : forall E w t, simple_pattern w -> answers (has_text E w (Ok t)) (occurs E w t).
Proof.
  intros E w t P. unfold has_text. cbn [bind]. destruct (pattern_parse w P) as [p R]. destruct (simple_search E w p R) as [y [-> S]]. cbn [bind].
  apply bool_answers. rewrite S. apply occurs_search, R.
Qed.
Lemma answers_iff : forall x P Q, (P <-> Q) -> answers x P -> answers x Q.
Proof. intros x P Q H [[E A]|[E A]]; [left|right]; split; tauto. Qed.
Lemma text_word : forall E s, text E (VStr s) = Ok s.
Proof. intros E s. rewrite text_unfold. reflexivity. Qed.
(** A part that is rendered as part_ctx says. *)
Lemma part_words : forall set t cl, part_ctx set t = Ok (spaced cl) -> (set = true /\ cl <> [] /\ t = Ok (words cl)) \/ (set = false /\ cl = []).
Proof.
  intros set t cl. unfold part_ctx. destruct set; intros H.
  - left. split; [reflexivity|]. destruct t as [x|]; [|discriminate]. injection H as H. destruct cl as [|y cl]; [discriminate|].
    split; [discriminate|]. rewrite spaced_cons in H. injection H as H. rewrite words_cons. congruence.
  - right. split; [reflexivity|]. destruct cl as [|y cl]; [reflexivity|]. discriminate H.
Qed.
Lemma str_word : forall E w, w <> [] -> asked_word E (VStr w) w.
Proof. intros E [|c w] N; [congruence|]. split; [reflexivity|apply text_word]. Qed.
Lemma part_answers : forall E set t cl, part_ctx set t = Ok (spaced cl) ->
  answers (query_has (pure_world E) (Some (set, t, HPart)) VNone) (cl <> []) /\
  forall v w, asked_word E v w -> simple_pattern w -> answers (query_has (pure_world E) (Some (set, t, HPart)) v) (cl <> [] /\ occurs E w (words cl)).
Proof.
  intros E set t cl H. apply part_words in H. destruct H as [[-> [N ->]]|[-> ->]]; cbn [query_has].
  - split; [left; split; [reflexivity|exact N]|]. intros v w [Tr Tx] P. rewrite Tr. cbn [part_has w_str pure_world].
    rewrite Tx. cbn [bind w_env pure_world]. destruct (has_text_answers E w (words cl) P) as [[-> W]|[-> W]]; [left|right]; split; try reflexivity; tauto.
  - split; [right; split; [reflexivity|]; now intros X|]. intros v w _ _. right. split; [reflexivity|]. tauto.
Qed.
Lemma part_of : forall (x : res str) l (P : list str -> Prop), (forall y, x = Ok y <-> exists cl, P cl /\ y = spaced cl) -> P l -> x = Ok (spaced l).
Proof. intros x l P H Pl. apply H. eauto. Qed.
Lemma select_part_text : forall E H n l, let q := calls sel_step empty_select H in select_part E (map snd H) q n l ->
  exists set t, sel_part E (text E) q n = Some (set, t, HPart) /\ part_ctx set t = Ok (spaced l).
Proof.
  intros E H n l q P. inversion P as [t C|l' C|l' C|l' C|l' C|l' C|l' C|l' C]; subst; do 2 eexists;
    match goal with |- sel_part _ _ _ ?n = _ /\ _ => (split; [reflexivity|]) end.
  - apply columns_ok in C. rewrite C. cbn [part_ctx bind]. rewrite spaced_cons, spaced_nil, app_nil_r. reflexivity.
  - apply (part_of _ _ _ (from_part E (s_tabs q)) C).
  - apply (part_of _ _ _ (fun y => cond_part E (lit "WHERE") (s_where q) y ltac:(discriminate)) C).
  - apply (part_of _ _ _ (fun y => order_part E (lit "GROUP BY") (s_group q) y ltac:(discriminate)) C).
  - apply (part_of _ _ _ (fun y => cond_part E (lit "HAVING") (s_having q) y ltac:(discriminate)) C).
  - apply (part_of _ _ _ (fun y => order_part E (lit "ORDER BY") (s_order q) y ltac:(discriminate)) C).
  - unfold q. rewrite limit_state. apply (part_of _ _ _ (limit_ok _ _) C).
  - unfold q. apply (part_of _ _ _ (out_ok E H) C).
Qed.
Lemma select_part_name : forall E ops q n l, select_part E ops q n l ->
  In n (map lit ["columns"; "tables"; "where"; "group_by"; "having"; "order_by"; "limit"; "into_outfile"]%string).
Proof. intros E ops q n l P. inversion P; simpl; tauto. Qed.
(** No option has the name of a part. *)
Lemma not_an_option : forall E o n, In n (map lit ["columns"; "tables"; "where"; "group_by"; "having"; "order_by"; "limit"; "into_outfile"; "select_for_update"]%string) ->
  query_has (pure_world E) (Some (selopts_set o, Ok (selopts_str o), HOptions)) (VStr n) = Ok false.
Proof.
  intros E o n I. cbn [query_has]. destruct (selopts_set o); [|reflexivity].
  assert (X : has_text E (supper E n) (Ok (selopts_str o)) = Ok false /\ truthy (VStr n) = true).
  { cbn [map In] in I. repeat (destruct I as [<-|I]; [destruct o as [[] [] [] [] [] [] [] []]; vm_compute; split; reflexivity|]). destruct I. }
  destruct X as [X1 ->]. cbn [part_has pure_world w_str]. rewrite text_word. cbn [bind w_env pure_world]. exact X1.
Qed.
Lemma select_has : forall E H n l, let q := calls sel_step empty_select H in select_part E (map snd H) q n l ->
  answers (sel_has (pure_world E) q n VNone) (l <> []) /\
  forall v w, asked_word E v w -> simple_pattern w -> answers (sel_has (pure_world E) q n v) (l <> [] /\ occurs E w (words l)).
Proof.
  intros E H n l q P. pose proof (select_part_name _ _ _ _ _ P) as N. destruct (select_part_text E H n l P) as [set [t [S C]]]. fold q in S.
  destruct (part_answers E set t l C) as [A1 A2]. unfold sel_has. cbn [w_env w_str pure_world]. rewrite S. split.
  - destruct A1 as [[-> A]|[-> A]]; cbn [bind truthy]; [left; auto|right; split; [|exact A]].
    apply (not_an_option E (s_opts q) n). revert N. cbn [map In]. tauto.
  - intros v w Aw Pw. destruct (A2 v w Aw Pw) as [[-> A]|[-> A]]; cbn [bind]; [left; auto|right; split; [|exact A]].
    destruct Aw as [-> _]. reflexivity.
Qed.
Lemma options_words : forall H, selopts_str (s_opts (calls sel_step empty_select H)) = words (select_options (map snd H)) /\
  (selopts_set (s_opts (calls sel_step empty_select H)) = true <-> select_options (map snd H) <> []).
Proof.
  intros H. destruct (opts_text (s_opts (calls sel_step empty_select H))) as [T1 T2]. rewrite T1, T2, existsb_filter. unfold select_options.
  rewrite (filter_ext _ _ (options_inv H) alphabetical). split; [reflexivity|]. generalize (filter (option_on (map snd H)) alphabetical). intros [|k l]; cbn; split; intros X; try discriminate; try reflexivity; now contradict X.
Qed.
Lemma options_answer : forall E H v w, asked_word E v w -> simple_pattern (supper E w) -> let q := calls sel_step empty_select H in
  answers (query_has (pure_world E) (Some (selopts_set (s_opts q), Ok (selopts_str (s_opts q)), HOptions)) v)
          (select_options (map snd H) <> [] /\ occurs E (supper E w) (words (select_options (map snd H)))).
Proof.
  intros E H v w [Tr Tx] P q. destruct (options_words H) as [T S]. fold q in T, S. rewrite T. cbn [query_has]. destruct (selopts_set (s_opts q)).
  - rewrite Tr. cbn [part_has pure_world w_str]. rewrite Tx. cbn [bind w_env pure_world].
    destruct (has_text_answers E _ (words (select_options (map snd H))) P) as [[-> W]|[-> W]]; [left|right]; split; try reflexivity; tauto.
  - right. split; [reflexivity|]. intros [X _]. apply S in X. discriminate.
Qed.
Lemma other_name : forall E r q n, ~ In n select_names -> sel_part E r q n = None.
Proof.
  intros E r q n N. unfold sel_part.
  assert (X : forall s, In s select_names -> seqb n s = false).
  { intros s I. apply not_true_is_false. intros Q. apply seqb_eq in Q. subst. contradiction. }
  rewrite !X by (unfold select_names; simpl; tauto). reflexivity.
Qed.
(** has('select_options', w), and has(w) for a word that is no part. *)
Lemma select_has_option : forall E H, let q := calls sel_step empty_select H in
  (forall v w, asked_word E v w -> simple_pattern (supper E w) -> answers (sel_has (pure_world E) q (lit "select_options") v)
          (select_options (map snd H) <> [] /\ occurs E (supper E w) (words (select_options (map snd H))))) /\
  (forall w, w <> [] -> simple_pattern (supper E w) -> ~ In w select_names -> answers (sel_has (pure_world E) q w VNone)
          (select_options (map snd H) <> [] /\ occurs E (supper E w) (words (select_options (map snd H))))).
Proof.
  intros E H q. unfold sel_has. cbn [w_env w_str pure_world]. split.
  - intros v w Aw P. pose proof (options_answer E H v w Aw P) as A. fold q in A.
    change (sel_part E (text E) q (lit "select_options")) with (Some (selopts_set (s_opts q), Ok (selopts_str (s_opts q)), HOptions)).
    destruct A as [[-> A]|[-> A]]; cbn [bind]; [left; auto|right]. split; [|exact A]. destruct Aw as [-> _]. reflexivity.
  - intros w Nw P O. pose proof (options_answer E H (VStr w) w (str_word E w Nw) P) as A. fold q in A. rewrite (other_name _ _ _ _ O). cbn [query_has bind truthy].
    change (sel_part E (text E) q (lit "select_options")) with (Some (selopts_set (s_opts q), Ok (selopts_str (s_opts q)), HOptions)). exact A.
Qed.
(** The shortcut has('distinct'). *)
Lemma option_word : forall E o k, query_has (pure_world E) (Some (selopts_set o, Ok (selopts_str o), HOptions)) (VStr (map ascii_lower (option_name k))) = Ok (opt_state o k).
Proof.
  intros E o k.
  assert (X : has_text E (supper E (map ascii_lower (option_name k))) (Ok (selopts_str o)) = Ok (opt_state o k) /\
              truthy (VStr (map ascii_lower (option_name k))) = true /\ (selopts_set o = false -> opt_state o k = false)).
  { destruct k; destruct o as [[] [] [] [] [] [] [] []]; vm_compute; (split; [|split]); try reflexivity; discriminate. }
  destruct X as [X1 [X3 X4]]. cbn [query_has]. rewrite X3. destruct (selopts_set o); [|rewrite X4; reflexivity].
  cbn [part_has pure_world w_str]. rewrite text_word. cbn [bind w_env pure_world]. exact X1.
Qed.
Lemma select_has_switch : forall E H k, sel_has (pure_world E) (calls sel_step empty_select H) (map ascii_lower (option_name k)) VNone = Ok (option_on (map snd H) k).
Proof.
  intros E H k. unfold sel_has. cbn [w_env w_str pure_world]. rewrite other_name by (destruct k; vm_compute; intuition discriminate).
  cbn [query_has bind truthy]. rewrite <- (options_inv H k). exact (option_word E (s_opts (calls sel_step empty_select H)) k).
Qed.
Lemma select_has_lock : forall E H, sel_has (pure_world E) (calls sel_step empty_select H) (lit "select_for_update") VNone = Ok (locked (map snd H)).
Proof.
  intros E H. unfold sel_has. cbn [w_env w_str pure_world].
  set (q := calls sel_step empty_select H).
  change (sel_part E (text E) q (lit "select_for_update")) with (Some (s_forupd q, @Ok str (lit "FOR UPDATE"), HForUpdate)).
  unfold q. rewrite locked_state. cbn [query_has truthy]. destruct (locked (map snd H)); [reflexivity|]. cbn [bind].
  apply (not_an_option E (s_opts q)). simpl. tauto.
Qed.
Lemma update_has : forall E q n l, update_part E q n l ->
  answers (upd_has (pure_world E) q n VNone) (l <> []) /\
  forall v w, asked_word E v w -> simple_pattern w -> answers (upd_has (pure_world E) q n v) (l <> [] /\ occurs E w (words l)).
Proof.
  intros E q n l P. unfold upd_has. cbn [w_env w_str pure_world].
  assert (X : exists set t, upd_part E (text E) q n = Some (set, t, HPart) /\ part_ctx set t = Ok (spaced l)).
  { inversion P as [l' C|l' C|l' C]; subst; do 2 eexists; (split; [reflexivity|]).
    - apply (part_of _ _ _ (tables_part E (u_tabs q)) C).
    - apply (part_of _ _ _ (values_part E [] (u_vals q)) C).
    - apply (part_of _ _ _ (fun y => cond_part E (lit "WHERE") (u_where q) y ltac:(discriminate)) C). }
  destruct X as [set [t [-> C]]]. apply part_answers. exact C.
Qed.
Lemma delete_has : forall E q n l, delete_part E q n l ->
  answers (del_has (pure_world E) q n VNone) (l <> []) /\
  forall v w, asked_word E v w -> simple_pattern w -> answers (del_has (pure_world E) q n v) (l <> [] /\ occurs E w (words l)).
Proof.
  intros E q n l P. unfold del_has. cbn [w_env w_str pure_world].
  assert (X : exists set t, del_part E (text E) q n = Some (set, t, HPart) /\ part_ctx set t = Ok (spaced l)).
  { inversion P as [l' C|l' C|l' C]; subst; do 2 eexists; (split; [reflexivity|]).
    - apply (part_of _ _ _ (tables_part E (d_tabs q)) C).
    - apply (part_of _ _ _ (tables_part E (d_refs q)) C).
    - apply (part_of _ _ _ (fun y => cond_part E (lit "WHERE") (d_where q) y ltac:(discriminate)) C). }
  destruct X as [set [t [-> C]]]. apply part_answers. exact C.
Qed.
Lemma insert_has : forall E q n l, insert_part E q n l ->
  answers (ins_has (pure_world E) q n VNone) (l <> []) /\
  forall v w, asked_word E v w -> simple_pattern w -> answers (ins_has (pure_world E) q n v) (l <> [] /\ occurs E w (words l)).
Proof.
  intros E q n l P. unfold ins_has. cbn [w_env w_str pure_world].
  assert (X : seqb n (lit "keyword") = false /\ exists set t, ins_part E (text E) q n = Some (set, t, HPart) /\ part_ctx set t = Ok (spaced l)).
  { inversion P as [l' C|l' C|l' C|c l' CC C]; subst; (split; [reflexivity|]); do 2 eexists; (split; [reflexivity|]).
    - apply (part_of _ _ _ (tables_part E (i_tabs q)) C).
    - apply (part_of _ _ _ (rows_part E (i_rows q)) C).
    - apply (part_of _ _ _ (values_part E (lit "ON DUPLICATE KEY UPDATE") (i_dup q)) C).
    - assert (K : conflict_keyword E (i_conflict q) ++ [c_sp] = lit "ON CONFLICT (" ++ c ++ lit ") DO UPDATE ").
      { unfold conflict_keyword, conflict_text in *. destruct (i_conflict q) as [s|].
        - unfold name_text in CC. rewrite text_R in CC. injection CC as <-. rewrite <- !app_assoc. reflexivity.
        - subst c. reflexivity. }
      apply values_part. exists l. split; [|reflexivity]. replace (is_nilb (conflict_keyword E (i_conflict q))) with false by reflexivity. rewrite K. exact C. }
  destruct X as [-> [set [t [-> C]]]]. apply part_answers. exact C.
Qed.
Lemma other_options : forall E,
  (forall q, upd_has (pure_world E) q (lit "update_options") VNone = Ok (u_ignore q)) /\
  (forall q, del_has (pure_world E) q (lit "delete_options") VNone = Ok (d_ignore q)) /\
  (forall q, ins_has (pure_world E) q (lit "insert_options") VNone = Ok (i_ignore q)).
Proof. intros E. split; [|split]; intros []; cbn; match goal with |- (if ?b then _ else _) = _ => destruct b; reflexivity end. Qed.
Lemma select_has_collected : forall E q n P, collected q n P -> answers (sel_has (pure_world E) q n VNone) P.
Proof.
  intros E q n P C.
  assert (X : exists A (l : list A) t, sel_part E (text E) q n = Some (negb (is_nilb l), t, HPart) /\ (P <-> l <> []) /\
     In n (map lit ["columns"; "tables"; "where"; "group_by"; "having"; "order_by"; "limit"; "into_outfile"; "select_for_update"]%string)).
  { destruct C as [[-> I]|[[-> I]|[[-> I]|[[-> I]|[-> I]]]]]; do 3 eexists; (split; [reflexivity|]); (split; [exact I|]); simpl; tauto. }
  destruct X as [A [l [t [S [I N]]]]]. unfold sel_has. cbn [w_env w_str pure_world]. rewrite S. cbn [query_has truthy].
  destruct l as [|x l]; cbn [is_nilb negb bind].
  - right. rewrite I. split; [|tauto]. apply (not_an_option E (s_opts q) n N).
  - left. rewrite I. split; [reflexivity|discriminate].
Qed.
(** A word without special characters. *)
Lemma plain_word : forall E w, w <> [] -> plain w ->
  asked_word E (VStr w) w /\ simple_pattern w /\ forall s, occurs E w s <-> whole_word E w s.
Proof. intros E w N P. split; [apply str_word, N|]. split; [apply plain_pattern, P|]. intros s. apply plain_occurs, P. Qed.
