(** The text of each clause agrees with SpecClauses. *)
From Coq Require Import Lia Sorted.
From Verif Require Import Base BaseFacts NumFmt Value Backend Eq Render RenderFacts ParseArgs Build Queries
  SpecRead SpecRef SpecArgs SpecHistory SpecClauses RefFacts LiteralFacts History PfHistories PfArgs PfDedupe.
Open Scope N_scope.

Lemma bind_ok : forall A B (x : res A) (f : A -> res B) t,
  bind x f = Ok t <-> exists a, x = Ok a /\ f a = Ok t.
Proof. intros A B [a|e] f t; simpl; split; [eauto|intros [b [H1 H2]]; congruence|discriminate|intros [b [H1 H2]]; discriminate]. Qed.
Lemma mapM_ok : forall A B (f : A -> res B) l ts, mapM f l = Ok ts <-> Forall2 (fun x t => f x = Ok t) l ts.
Proof.
  intros A B f l. induction l as [|x l IH]; intros ts; simpl.
  - split; [intros H; injection H as <-; constructor|intros H; inversion H; reflexivity].
  - split.
    + destruct (f x) eqn:F; [|discriminate]. destruct (mapM f l) eqn:M; [|discriminate].
      intros H; injection H as <-. constructor; [exact F|]. now apply IH.
    + intros H. inversion H as [|? ? ? ? H1 H2]; subst. rewrite H1. apply IH in H2. now rewrite H2.
Qed.
Lemma Forall2_iff : forall A B (P Q : A -> B -> Prop), (forall a b, P a b <-> Q a b) ->
  forall l m, Forall2 P l m <-> Forall2 Q l m.
Proof. intros A B P Q H l m. split; intros F; induction F; constructor; auto; now apply H. Qed.
Lemma mapM_sep : forall A (f : A -> res str) (P : A -> str -> Prop) sep l t,
  (forall x u, f x = Ok u <-> P x u) ->
  (exists ts, mapM f l = Ok ts /\ t = sjoin sep ts) <-> separated sep P l t.
Proof.
  intros A f P sep l t H. unfold separated. split; intros [ts [H1 H2]]; exists ts; split; auto.
  - apply mapM_ok in H1. eapply Forall2_iff; [|exact H1]. intros; symmetry; apply H.
  - apply mapM_ok. eapply Forall2_iff; [|exact H1]. intros; apply H.
Qed.

Lemma text_R : forall E v, text E (VSqlR v) = sqlref E (text E) v.
Proof. intros. now rewrite text_unfold. Qed.
Lemma text_V : forall E v, text E (VSqlV v) = sqlvalue E (text E) v.
Proof. intros. now rewrite text_unfold. Qed.

Lemma aliased_ok : forall E p t, aliased_str E (text E) p = Ok t <-> aliased_text E p t.
Proof.
  intros E [n a] t. unfold aliased_str. destruct (truthy a) eqn:T; split.
  - intros H. apply bind_ok in H. destruct H as [x [H1 H]]. apply bind_ok in H. destruct H as [y [H2 H]].
    injection H as <-. apply as_alias; auto; unfold name_text; rewrite text_R; auto.
  - intros H. inversion H as [? ? ? T'|? ? x y T' N1 N2]; subst; [congruence|].
    unfold name_text in *. rewrite text_R in *. rewrite N1, N2. reflexivity.
  - intros H. apply as_plain; [exact T|]. unfold name_text. now rewrite text_R.
  - intros H. inversion H as [? ? ? T' N|? ? ? ? T']; subst; [|congruence].
    unfold name_text in *. now rewrite text_R in N.
Qed.
Lemma order_ok_text : forall E p t, order_str E (text E) p = Ok t <-> order_text E p t.
Proof.
  intros E [c []] t; unfold order_str; split.
  - intros H. constructor. unfold name_text. now rewrite text_R.
  - intros H. inversion H as [? ? N|]; subst. unfold name_text in N. now rewrite text_R in N.
  - intros H. apply bind_ok in H. destruct H as [x [H1 H]]. injection H as <-. constructor. unfold name_text. now rewrite text_R.
  - intros H. inversion H as [|? ? N]; subst. unfold name_text in N. rewrite text_R in N. now rewrite N.
Qed.
Lemma Forall2_nil_l : forall A B (P : A -> B -> Prop) l, Forall2 P [] l -> l = [].
Proof. intros A B P l H. now inversion H. Qed.
Lemma columns_ok : forall E cols t, columns_str E (text E) cols = Ok t <-> columns_text E cols t.
Proof.
  intros E cols t. unfold columns_str. destruct cols as [|c cs].
  - simpl. split; [intros H; injection H as <-; constructor|intros H; inversion H; reflexivity].
  - split.
    + intros H. apply bind_ok in H. destruct H as [ts [H1 H]]. injection H as <-. constructor.
      apply (mapM_sep _ _ _ (lit ", ") _ _ (aliased_ok E)). exists ts. split; [exact H1|].
      apply mapM_ok in H1. inversion H1; subst. reflexivity.
    + intros H. inversion H as [|? ? ? S]; subst. apply (mapM_sep _ _ _ (lit ", ") _ _ (aliased_ok E)) in S.
      destruct S as [ts [M ->]]. rewrite M. cbn [bind]. apply mapM_ok in M. inversion M; subst. reflexivity.
Qed.

(** A clause inside a query: nothing, or a space and the text. *)
Definition spaced (cl : list str) : str := flat_map (fun c => c_sp :: c) cl.
Lemma words_cons : forall x l, words (x :: l) = x ++ spaced l.
Proof.
  intros x l. revert x. induction l as [|y l IH]; intros x; [simpl; now rewrite app_nil_r|].
  change (words (x :: y :: l)) with (x ++ lit " " ++ words (y :: l)). rewrite IH. reflexivity.
Qed.
Lemma spaced_app : forall a b, spaced (a ++ b) = spaced a ++ spaced b.
Proof. intros. apply flat_map_app. Qed.
Lemma part_clause : forall A (f : A -> res str) (P : A -> str -> Prop) kw pre sep l x,
  (forall y u, f y = Ok u <-> P y u) -> (kw = [] /\ pre = [] \/ kw <> [] /\ pre = kw ++ [c_sp]) ->
  part_ctx (negb (is_nilb l)) (do ts <- mapM f l; Ok (parts_str kw [] sep ts)) = Ok x <->
  exists cl, clause pre sep P l cl /\ x = spaced cl.
Proof.
  intros A f P kw pre sep l x H K. destruct l as [|y l].
  - simpl. split.
    + intros E. injection E as <-. exists []. split; [constructor|reflexivity].
    + intros [cl [C ->]]. inversion C. reflexivity.
  - change (negb (is_nilb (y :: l))) with true. unfold part_ctx.
    assert (G : forall ts, mapM f (y :: l) = Ok ts -> parts_str kw [] sep ts = pre ++ sjoin sep ts).
    { intros ts M. apply mapM_ok in M. inversion M; subst. unfold parts_str. cbn [is_nilb].
      destruct K as [[-> ->]|[K ->]]; [reflexivity|]. rewrite (nilb_false _ kw K). now rewrite <- app_assoc. }
    split.
    + intros E. apply bind_ok in E. destruct E as [z [E1 E2]]. injection E2 as <-.
      apply bind_ok in E1. destruct E1 as [ts [E1 E2]]. injection E2 as <-.
      exists [pre ++ sjoin sep ts]. split; [constructor|].
      * apply (mapM_sep _ _ _ _ _ _ H). exists ts. auto.
      * simpl. rewrite app_nil_r. now rewrite (G _ E1).
    + intros [cl [C ->]]. inversion C as [|? ? t S]; subst. apply (mapM_sep _ _ _ _ _ _ H) in S.
      destruct S as [ts [M ->]]. rewrite M. cbn [bind]. rewrite (G _ M). simpl. now rewrite app_nil_r.
Qed.

(** ** Joins *)
Lemma same_join_equal : forall E a b, same_join (text E) a b = join_equal E a b.
Proof.
  intros E a b. unfold same_join, join_equal, both, rand. unfold py_eq at 3. cbn [pyeq textual_eq].
  unfold py_eq. destruct (pyeq _ (j_name a) _) as [[]|]; try reflexivity.
  destruct (pyeq _ (j_alias a) _) as [[]|]; reflexivity.
Qed.
(** Groups built so far, then one pass over the rest. *)
Inductive grouped (E : env) : list (join val) -> list jgroup -> Prop :=
| gr_nil : grouped E [] []
| gr_cons : forall j l tw ot gs, parted (join_equal E j) l tw ot -> grouped E ot gs -> grouped E (j :: l) ((j, tw) :: gs).
Lemma parted_snoc_yes : forall A (f : A -> res bool) l a b x, parted f l a b -> f x = Ok true -> parted f (l ++ [x]) (a ++ [x]) b.
Proof. intros A f l a b x P H. induction P; simpl; try (constructor; auto; fail). apply parted_yes; [exact H|constructor]. Qed.
Lemma parted_snoc_no : forall A (f : A -> res bool) l a b x, parted f l a b -> f x = Ok false -> parted f (l ++ [x]) a (b ++ [x]).
Proof. intros A f l a b x P H. induction P; simpl; try (constructor; auto; fail). apply parted_no; [exact H|constructor]. Qed.
Lemma parted_snoc_inv : forall A (f : A -> res bool) l x a b, parted f (l ++ [x]) a b ->
  (exists a', a = a' ++ [x] /\ parted f l a' b /\ f x = Ok true) \/
  (exists b', b = b' ++ [x] /\ parted f l a b' /\ f x = Ok false).
Proof.
  intros A f l x. induction l as [|y l IH]; simpl; intros a b P.
  - inversion P as [|? ? a' b' H P'|? ? a' b' H P']; subst; inversion P'; subst.
    + left. exists []. repeat split; auto; constructor.
    + right. exists []. repeat split; auto; constructor.
  - inversion P as [|? ? a' b' H P'|? ? a' b' H P']; subst; destruct (IH _ _ P') as [[c [-> [Q F]]]|[c [-> [Q F]]]].
    + left. exists (y :: c). repeat split; auto. now constructor.
    + right. exists c. repeat split; auto. now constructor.
    + left. exists c. repeat split; auto. now constructor.
    + right. exists (y :: c). repeat split; auto. now constructor.
Qed.
Lemma group_add_grouped : forall E j gs l gs', grouped E l gs -> group_add (text E) j gs = Ok gs' -> grouped E (l ++ [j]) gs'.
Proof.
  intros E j gs. induction gs as [|[h t] gs IH]; intros l gs' G H; inversion G as [|? l' tw ot ? P G']; subst; simpl in H.
  - injection H as <-. simpl. eapply gr_cons; constructor.
  - rewrite same_join_equal in H. destruct (join_equal E h j) as [[]|] eqn:J; try discriminate.
    + injection H as <-. simpl. eapply gr_cons; [apply parted_snoc_yes; eauto|exact G'].
    + destruct (group_add (text E) j gs) as [gs2|] eqn:A; [|discriminate]. injection H as <-.
      simpl. eapply gr_cons; [apply parted_snoc_no; eauto|]. eauto.
Qed.
Lemma group_add_complete : forall E j l gs', grouped E (l ++ [j]) gs' ->
  exists gs, grouped E l gs /\ group_add (text E) j gs = Ok gs'.
Proof.
  intros E j l gs'. remember (l ++ [j]) as m. intros G. revert l Heqm.
  induction G as [|h m' tw ot gs P G IH]; intros l Q; [destruct l; discriminate|].
  destruct l as [|y l]; injection Q as <- ->.
  - inversion P; subst. inversion G; subst. exists []. split; [constructor|reflexivity].
  - destruct (parted_snoc_inv _ _ _ _ _ _ P) as [[tw' [-> [P' F]]]|[ot' [-> [P' F]]]].
    + exists ((h, tw') :: gs). split; [econstructor; eauto|]. simpl. rewrite same_join_equal, F. reflexivity.
    + destruct (IH ot' eq_refl) as [gs0 [G0 A]]. exists ((h, tw) :: gs0). split; [econstructor; eauto|].
      simpl. rewrite same_join_equal, F, A. reflexivity.
Qed.
Lemma group_joins_snoc : forall r l j gs, group_joins r (l ++ [j]) gs =
  match group_joins r l gs with Ok g => group_add r j g | Err e => Err e end.
Proof.
  intros r l j. induction l as [|x l IH]; intros gs; simpl; [destruct (group_add r j gs); reflexivity|].
  destruct (group_add r x gs); [apply IH|reflexivity].
Qed.
Lemma group_joins_grouped : forall E l gs, group_joins (text E) l [] = Ok gs <-> grouped E l gs.
Proof.
  intros E l. induction l as [|j l IH] using rev_ind; intros gs.
  - simpl. split; [intros H; injection H as <-; constructor|intros H; inversion H; reflexivity].
  - rewrite group_joins_snoc. split.
    + destruct (group_joins (text E) l []) as [g|] eqn:G; [|discriminate]. intros H.
      eapply group_add_grouped; [|exact H]. now apply IH.
    + intros H. destruct (group_add_complete _ _ _ _ H) as [g [G A]]. apply IH in G. now rewrite G.
Qed.
Lemma is_inner_iff : forall j, is_inner j = true <-> j_type j = JInner.
Proof. intros [[] n a o]; unfold is_inner; simpl; split; congruence. Qed.
Lemma jointy_eqb_iff : forall a b, jointy_eqb a b = true <-> a = b.
Proof. intros [] []; simpl; split; congruence. Qed.
Lemma settle_settled : forall j tw, settled j tw (settle_group (j, tw)).
Proof.
  intros j tw. unfold settle_group. destruct tw as [|x tw]; [apply st_alone|]. cbn [is_nilb negb andb].
  destruct (existsb is_inner (j :: x :: tw)) eqn:I.
  - apply existsb_exists in I. destruct I as [y [I1 I2]]. apply is_inner_iff in I2. apply st_inner; [discriminate|eauto].
  - assert (N : forall y, In y (j :: x :: tw) -> j_type y <> JInner).
    { intros y Hy C. apply is_inner_iff in C. assert (existsb is_inner (j :: x :: tw) = true) by (apply existsb_exists; eauto). congruence. }
    destruct (forallb _ (j :: x :: tw)) eqn:S.
    + apply st_same; [discriminate|apply N; simpl; auto|]. intros y Hy. rewrite forallb_forall in S.
      apply jointy_eqb_iff. apply S. now right.
    + apply st_mixed; [exact N|]. cbn [forallb] in S. replace (jointy_eqb (j_type j) (j_type j)) with true in S by (symmetry; now apply jointy_eqb_iff).
      change (forallb (fun z => jointy_eqb (j_type z) (j_type j)) (x :: tw) = false) in S.
      revert S. generalize (x :: tw). intros l. induction l as [|z l IH]; [discriminate|]. simpl.
      destruct (jointy_eqb (j_type z) (j_type j)) eqn:Z.
      * intros S. destruct (IH S) as [y [H1 H2]]. eauto.
      * intros _. exists z. split; [now left|]. intros C. apply jointy_eqb_iff in C. congruence.
Qed.
Lemma settled_is : forall j tw out, settled j tw out -> out = settle_group (j, tw).
Proof.
  intros j tw out H. unfold settle_group. inversion H as [|? N1 [x [I1 I2]]|? N1 T1 S1|? N1 [x [I1 I2]]]; subst.
  - reflexivity.
  - rewrite (nilb_false _ tw N1). cbn [negb andb].
    replace (existsb is_inner (j :: tw)) with true; [reflexivity|]. symmetry. apply existsb_exists.
    exists x. split; [exact I1|]. now apply is_inner_iff.
  - rewrite (nilb_false _ tw N1). cbn [negb andb].
    assert (X : existsb is_inner (j :: tw) = false).
    { destruct (existsb is_inner (j :: tw)) eqn:X; [|reflexivity]. apply existsb_exists in X. destruct X as [y [Y1 Y2]].
      apply is_inner_iff in Y2. destruct Y1 as [->|Y1]; [contradiction|]. rewrite (S1 _ Y1) in Y2. contradiction. }
    rewrite X. assert (Y : forallb (fun j0 => jointy_eqb (j_type j0) (j_type j)) (j :: tw) = true).
    { apply forallb_forall. intros y [<-|Hy]; apply jointy_eqb_iff; auto. }
    rewrite Y. reflexivity.
  - assert (X : existsb is_inner (j :: tw) = false).
    { destruct (existsb is_inner (j :: tw)) eqn:X; [|reflexivity]. apply existsb_exists in X. destruct X as [y [Y1 Y2]].
      apply is_inner_iff in Y2. exfalso. eapply N1; eauto. }
    rewrite X, andb_false_r. assert (Y : forallb (fun j0 => jointy_eqb (j_type j0) (j_type j)) (j :: tw) = false).
    { destruct (forallb _ (j :: tw)) eqn:Y; [|reflexivity]. rewrite forallb_forall in Y. exfalso. apply I2.
      apply jointy_eqb_iff. apply Y. now right. }
    rewrite Y, andb_false_r. reflexivity.
Qed.
Lemma settled_fun : forall j tw a b, settled j tw a -> settled j tw b -> a = b.
Proof. intros j tw a b H1 H2. now rewrite (settled_is _ _ _ H1), (settled_is _ _ _ H2). Qed.
Lemma grouped_merged : forall E l ms, merged E l ms <-> exists gs, grouped E l gs /\ ms = flat_map settle_group gs.
Proof.
  intros E l ms. split.
  - intros M. induction M as [|j l tw ot out rest P S M [gs [G ->]]]; [exists []; split; [constructor|reflexivity]|].
    exists ((j, tw) :: gs). split; [econstructor; eauto|]. cbn [flat_map].
    now rewrite (settled_fun _ _ _ _ S (settle_settled j tw)).
  - intros [gs [G ->]]. induction G as [|j l tw ot gs P G IH]; [constructor|]. cbn [flat_map].
    econstructor; eauto. apply settle_settled.
Qed.
Lemma minimize_merged : forall E js ms, minimize (text E) js = Ok ms <-> merged E js ms.
Proof.
  intros E js ms. rewrite grouped_merged. unfold minimize. split.
  - intros H. apply bind_ok in H. destruct H as [gs [H1 H2]]. injection H2 as <-. exists gs. split; [now apply group_joins_grouped|reflexivity].
  - intros [gs [G ->]]. apply group_joins_grouped in G. rewrite G. reflexivity.
Qed.

Lemma word_join : forall t, jointy_str t = join_word t.
Proof. intros []; reflexivity. Qed.
Lemma conds_list : forall E o os t, conds_str (text E) [] (o :: os) = Ok t <-> separated (lit " AND ") (cond_text E) (o :: os) t.
Proof.
  intros E o os t. unfold conds_str.
  rewrite <- (mapM_sep _ (text E) (cond_text E) (lit " AND ") (o :: os) t (fun x u => iff_refl _)). rewrite bind_ok. split.
  - intros [ts [H1 H2]]. exists ts. split; [exact H1|]. injection H2 as <-. apply mapM_ok in H1. inversion H1; subst. reflexivity.
  - intros [ts [H1 ->]]. exists ts. split; [exact H1|]. apply mapM_ok in H1. inversion H1; subst. reflexivity.
Qed.
Lemma join_ok : forall E j t, join_str E (text E) j = Ok t <-> join_text E j t.
Proof.
  intros E [ty n a os] t. unfold join_str. cbn [j_ons j_name j_alias j_type]. rewrite word_join. destruct os as [|o os].
  - cbn [is_nilb bind]. rewrite bind_ok. split.
    + intros [x [H1 H2]]. injection H2 as <-. apply aliased_ok in H1. rewrite app_nil_r. constructor. exact H1.
    + intros H. inversion H as [? ? ? x A|]; subst. apply aliased_ok in A. exists x. rewrite app_nil_r. auto.
  - cbn [is_nilb]. rewrite bind_ok. split.
    + intros [on [H1 H2]]. apply bind_ok in H1. destruct H1 as [c [H1 H3]]. injection H3 as <-.
      apply bind_ok in H2. destruct H2 as [x [H2 H4]]. injection H4 as <-. apply aliased_ok in H2. apply conds_list in H1.
      now constructor.
    + intros H. inversion H as [|? ? ? ? ? x c A C]; subst. apply aliased_ok in A. apply conds_list in C.
      exists (lit " ON " ++ c). rewrite C. split; [reflexivity|]. rewrite A. reflexivity.
Qed.
Lemma table_ok : forall E tb t, table_str E (text E) tb = Ok t <-> table_text E tb t.
Proof.
  intros E [n a js] t. unfold table_str. cbn [tb_name tb_alias tb_joins]. rewrite bind_ok. destruct js as [|j js]; cbn [is_nilb].
  - split.
    + intros [x [H1 H2]]. injection H2 as <-. constructor. now apply aliased_ok.
    + intros H. inversion H as [? ? ? A|]; subst. exists t. split; [now apply aliased_ok|reflexivity].
  - split.
    + intros [x [H1 H2]]. apply bind_ok in H2. destruct H2 as [ms [H2 H3]]. apply bind_ok in H3. destruct H3 as [ts [H3 H4]].
      injection H4 as <-. econstructor; [now apply aliased_ok|apply minimize_merged; eauto|].
      apply (mapM_sep _ _ _ _ _ _ (join_ok E)). eauto.
    + intros H. inversion H as [|? ? ? ? ms x u A M S]; subst. exists x. split; [now apply aliased_ok|].
      apply minimize_merged in M. rewrite M. cbn [bind]. apply (mapM_sep _ _ _ _ _ _ (join_ok E)) in S.
      destruct S as [ts [T ->]]. rewrite T. reflexivity.
Qed.

(** ** LIMIT, INTO OUTFILE, FOR UPDATE, options *)
Definition leading (s : str) : Prop := exists c r, s = c :: r /\ 49 <= c <= 57.
Lemma digit_inv : forall c d, digit c = Some d -> c = 48 + d /\ d <= 9.
Proof. intros c d H. unfold digit in H. destruct ((48 <=? c) && (c <=? 57)) eqn:E; [|discriminate]. injection H as <-. lia. Qed.
Lemma read_snoc : forall s c n acc, read_digits acc (s ++ [c]) = Some n ->
  exists m d, read_digits acc s = Some m /\ digit c = Some d /\ n = 10 * m + d.
Proof.
  induction s as [|x s IH]; intros c n acc H.
  - cbn [app read_digits] in H. destruct (digit c) as [d|] eqn:D; [|discriminate]. exists acc, d. repeat split; congruence.
  - cbn [app read_digits] in *. destruct (digit x); [|discriminate]. now apply IH.
Qed.
Lemma read_mono : forall s acc n, read_digits acc s = Some n -> acc <= n.
Proof.
  induction s as [|c s IH]; intros acc n H; cbn [read_digits] in H; [injection H as <-; lia|].
  destruct (digit c) as [d|]; [|discriminate]. apply IH in H. lia.
Qed.
Lemma leading_pos : forall s n, leading s -> read_digits 0 s = Some n -> 0 < n.
Proof.
  intros s n [c [r [-> H]]] R. cbn [read_digits] in R. destruct (digit c) as [d|] eqn:D; [|discriminate].
  apply digit_inv in D. apply read_mono in R. lia.
Qed.
Lemma leading_unique : forall s t n, (s = [] \/ leading s) -> (t = [] \/ leading t) ->
  read_digits 0 s = Some n -> read_digits 0 t = Some n -> s = t.
Proof.
  induction s as [|c s IH] using rev_ind; intros t n Ls Lt Rs Rt.
  - injection Rs as <-. destruct Lt as [->|Lt]; [reflexivity|]. pose proof (leading_pos _ _ Lt Rt). lia.
  - destruct t as [|d t _] using rev_ind.
    + injection Rt as <-. destruct Ls as [Ls|Ls]; [destruct s; discriminate|]. pose proof (leading_pos _ _ Ls Rs). lia.
    + apply read_snoc in Rs, Rt. destruct Rs as [m [x [R1 [D1 E1]]]], Rt as [m' [x' [R2 [D2 E2]]]].
      apply digit_inv in D1, D2. assert (m = m' /\ x = x') as [<- <-] by lia.
      assert (F : forall u e, u ++ [e] = [] \/ leading (u ++ [e]) -> u = [] \/ leading u).
      { intros u e [H|[y [r [H1 H2]]]]; [destruct u; discriminate|]. destruct u as [|z u]; [now left|right].
        injection H1 as -> _. now exists y, u. }
      rewrite (IH t m); eauto. f_equal. f_equal. lia.
Qed.
Lemma n_dec_unique : forall s n, leading s -> read_nat s = Some n -> s = n_dec n.
Proof.
  intros s n L R. apply (leading_unique s (n_dec n) n); [now right| | |].
  - right. apply n_dec_canonical. destruct s; [discriminate|]. pose proof (leading_pos _ _ L R). lia.
  - destruct s; [discriminate|exact R].
  - apply n_dec_read.
Qed.
Lemma numeral_unique : forall n t, numeral n t -> t = z_dec n.
Proof.
  intros n t [R C]. destruct C as [->|[[c [r [-> Hc]]]|[c [r [-> Hc]]]]].
  - cbv in R. injection R as <-. reflexivity.
  - assert (R' : read_int (c :: r) = match read_nat (c :: r) with Some n => Some (Z.of_N n) | None => None end).
    { unfold read_int. destruct c as [|p]; [lia|]. repeat (destruct p as [p|p|]; try reflexivity; try lia). }
    rewrite R' in R. destruct (read_nat (c :: r)) as [m|] eqn:M; [|discriminate]. injection R as <-.
    assert (L : leading (c :: r)) by (now exists c, r). rewrite (n_dec_unique _ _ L M).
    unfold z_dec. destruct (Z.of_N m) eqn:Z; [| |lia]; rewrite <- Z, N2Z.id; reflexivity.
  - unfold read_int in R. destruct (read_nat (c :: r)) as [m|] eqn:M; [|discriminate]. injection R as <-.
    assert (L : leading (c :: r)) by (now exists c, r). assert (0 < m).
    { apply (leading_pos _ _ L). exact M. }
    rewrite (n_dec_unique _ _ L M). destruct m as [|p]; [lia|]. reflexivity.
Qed.
