(** Proofs: reading and matching regular expressions. *)
From Coq Require Import Lia.
From Verif Require Import Base BaseFacts Value Pattern.
Open Scope N_scope.

(** ** Matching *)

Inductive mt (E : env) : rxt -> bool -> str -> str -> Prop :=
| mt_empty : forall st r, mt E XEmpty st [] r
| mt_one : forall k st c r, in_class E k c = true -> mt E (XOne k) st [c] r
| mt_bol : forall r, mt E XBol true [] r
| mt_eol : forall st r, r = [] \/ r = [c_nl] -> mt E XEol st [] r
| mt_cat : forall a b st m n r, mt E a st m (n ++ r) -> mt E b (st && is_nilb m) n r -> mt E (XCat a b) st (m ++ n) r
| mt_left : forall a b st m r, mt E a st m r -> mt E (XAlt a b) st m r
| mt_right : forall a b st m r, mt E b st m r -> mt E (XAlt a b) st m r
| mt_stop : forall a st r, mt E (XStar a) st [] r
| mt_more : forall a st m n r, mt E a st m (n ++ r) -> mt E (XStar a) (st && is_nilb m) n r -> mt E (XStar a) st (m ++ n) r.

Definition rounds (E : env) (a : rxt) : nat -> bool -> str -> list (bool * str) :=
  fix rounds (n : nat) (st : bool) (s : str) {struct n} : list (bool * str) :=
    (st, s) :: match n with
               | O => []
               | S n' => flat_map (fun p => if Nat.ltb (List.length (snd p)) (List.length s) then rounds n' (fst p) (snd p) else []) (x_ends E a st s)
               end.
Lemma ends_star : forall E a st s, x_ends E (XStar a) st s = rounds E a (List.length s) st s.
Proof. reflexivity. Qed.
Lemma nilb_app : forall (a b : str), is_nilb (a ++ b) = is_nilb a && is_nilb b.
Proof. intros [|x a] b; reflexivity. Qed.
Lemma mt_star_inv : forall E a st m r, mt E (XStar a) st m r -> m = [] \/
  exists m1 m2, m1 <> [] /\ m = m1 ++ m2 /\ mt E a st m1 (m2 ++ r) /\ mt E (XStar a) false m2 r.
Proof.
  intros E a st m r H. remember (XStar a) as x eqn:Q. induction H as [| | | | | | |a' st r|a' st m n r H1 IH1 H2 IH2]; try discriminate.
  - now left.
  - injection Q as ->. destruct m as [|c m].
    + rewrite andb_true_r in *. apply IH2. reflexivity.
    + right. exists (c :: m), n. repeat split; auto; [discriminate|]. cbn [is_nilb] in H2. now rewrite andb_false_r in H2.
Qed.
Lemma rounds_sound : forall E a,
  (forall st s st' r, In (st', r) (x_ends E a st s) -> exists m, s = m ++ r /\ st' = st && is_nilb m /\ mt E a st m r) ->
  forall n st s st' r, In (st', r) (rounds E a n st s) -> exists m, s = m ++ r /\ st' = st && is_nilb m /\ mt E (XStar a) st m r.
Proof.
  intros E a IH n. induction n as [|n IHn]; intros st s st' r H; cbn [rounds] in H; destruct H as [H|H].
  - injection H as -> ->. exists []. rewrite andb_true_r. repeat split. constructor.
  - destruct H.
  - injection H as -> ->. exists []. rewrite andb_true_r. repeat split. constructor.
  - apply in_flat_map in H. destruct H as [[st1 s1] [H1 H2]]. cbn [fst snd] in H2. destruct (Nat.ltb _ _); [|destruct H2].
    apply IH in H1. destruct H1 as [m1 [-> [-> M1]]]. apply IHn in H2. destruct H2 as [m2 [-> [-> M2]]].
    exists (m1 ++ m2). rewrite app_assoc, nilb_app, andb_assoc. repeat split. now apply mt_more.
Qed.
Lemma rounds_complete : forall E a,
  (forall st m r, mt E a st m r -> In (st && is_nilb m, r) (x_ends E a st (m ++ r))) ->
  forall n st m r, (List.length m <= n)%nat -> mt E (XStar a) st m r -> In (st && is_nilb m, r) (rounds E a n st (m ++ r)).
Proof.
  intros E a IH n. induction n as [|n IHn]; intros st m r L H; apply mt_star_inv in H; destruct H as [->|[m1 [m2 [N [-> [H1 H2]]]]]].
  - left. now rewrite andb_true_r.
  - destruct m1; [congruence|cbn [app List.length] in L; lia].
  - left. now rewrite andb_true_r.
  - right. apply in_flat_map. exists (false, m2 ++ r). apply IH in H1. rewrite <- app_assoc. split.
    + destruct m1; [congruence|]. cbn [is_nilb] in H1. now rewrite andb_false_r in H1.
    + cbn [fst snd]. assert (T : Nat.ltb (List.length (m2 ++ r)) (List.length (m1 ++ m2 ++ r)) = true).
      { apply Nat.ltb_lt. rewrite !app_length. destruct m1; [congruence|cbn [List.length]; lia]. }
      rewrite T. rewrite nilb_app. replace (is_nilb m1) with false by (destruct m1; [congruence|reflexivity]). rewrite andb_false_r.
      apply (IHn false m2 r); [|exact H2]. rewrite app_length in L. destruct m1; [congruence|cbn [List.length] in L; lia].
Qed.
Lemma ends_sound : forall E x st s st' r, In (st', r) (x_ends E x st s) -> exists m, s = m ++ r /\ st' = st && is_nilb m /\ mt E x st m r.
Proof.
  intros E x. induction x as [|k| | |a IHa b IHb|a IHa b IHb|a IHa]; intros st s st' r H.
  - destruct H as [H|[]]. injection H as -> ->. exists []. rewrite andb_true_r. repeat split. constructor.
  - destruct s as [|c s]; [destruct H|]. cbn [x_ends] in H. destruct (in_class E k c) eqn:K; [|destruct H]. destruct H as [H|[]]. injection H as <- <-.
    exists [c]. cbn [is_nilb]. rewrite andb_false_r. repeat split. now constructor.
  - cbn [x_ends] in H. destruct st; [|destruct H]. destruct H as [H|[]]. injection H as <- <-. exists []. repeat split. constructor.
  - assert (X : (s = [] \/ s = [c_nl]) /\ (st', r) = (st, s)).
    { destruct s as [|c [|d s]]; cbn [x_ends] in H.
      - destruct H as [H|[]]. auto.
      - destruct (N.eqb_spec c c_nl) as [->|]; [|destruct H]. destruct H as [H|[]]. auto.
      - destruct H. }
    destruct X as [X Q]. injection Q as -> ->. exists []. rewrite andb_true_r. repeat split. now constructor.
  - cbn [x_ends] in H. apply in_flat_map in H. destruct H as [[st1 s1] [H1 H2]]. cbn [fst snd] in H2.
    apply IHa in H1. destruct H1 as [m1 [-> [-> M1]]]. apply IHb in H2. destruct H2 as [m2 [-> [-> M2]]].
    exists (m1 ++ m2). rewrite app_assoc, nilb_app, andb_assoc. repeat split. now apply mt_cat.
  - cbn [x_ends] in H. apply in_app_or in H. destruct H as [H|H]; [apply IHa in H|apply IHb in H]; destruct H as [m [H1 [H2 H3]]]; exists m; repeat split; auto.
    + now apply mt_left.
    + now apply mt_right.
  - rewrite ends_star in H. apply (rounds_sound E a IHa) in H. exact H.
Qed.
Lemma ends_complete : forall E x st m r, mt E x st m r -> In (st && is_nilb m, r) (x_ends E x st (m ++ r)).
Proof.
  intros E x. induction x as [|k| | |a IHa b IHb|a IHa b IHb|a IHa]; intros st m r H.
  - inversion H; subst. left. now rewrite andb_true_r.
  - inversion H as [|k' st' c r' K Q1 Q2 Q3 Q4| | | | | | |]; subst. cbn [x_ends app is_nilb]. rewrite K, andb_false_r. now left.
  - inversion H; subst. left. reflexivity.
  - inversion H as [| | |st' r' K Q1 Q2 Q3 Q4| | | | |]; subst. rewrite andb_true_r. cbn [app]. destruct K as [-> | ->]; now left.
  - inversion H as [| | | |a' b' st' m' n' r' H1 H2 Q1 Q2 Q3 Q4| | | |]; subst. cbn [x_ends]. apply in_flat_map. rewrite <- app_assoc.
    exists (st && is_nilb m', n' ++ r). split; [now apply IHa|]. cbn [fst snd]. rewrite nilb_app, andb_assoc. now apply IHb.
  - cbn [x_ends]. apply in_or_app. inversion H; subst; [left; now apply IHa|right; now apply IHb].
  - rewrite ends_star. apply (rounds_complete E a IHa); [rewrite app_length; lia|exact H].
Qed.
Lemma ends_some : forall E x st s, is_nilb (x_ends E x st s) = false <-> exists m r, s = m ++ r /\ mt E x st m r.
Proof.
  intros E x st s. split.
  - destruct (x_ends E x st s) as [|[st' r] l] eqn:Q; [discriminate|]. intros _. destruct (ends_sound E x st s st' r) as [m [H1 [_ H2]]]; [rewrite Q; now left|]. eauto.
  - intros [m [r [-> H]]]. apply ends_complete in H. destruct (x_ends E x st (m ++ r)); [destruct H|reflexivity].
Qed.
Lemma x_search_iff : forall E x s st, x_search E x st s = true <-> exists a m b, s = a ++ m ++ b /\ mt E x (st && is_nilb a) m b.
Proof.
  intros E x s. induction s as [|c s IH]; intros st; cbn [x_search]; rewrite orb_true_iff, negb_true_iff, ends_some; [|rewrite IH]; split.
  - intros [[m [r [H1 H2]]]|H]; [|discriminate]. exists [], m, r. cbn [is_nilb]. rewrite andb_true_r. auto.
  - intros [a [m [b [H1 H2]]]]. left. exists m, b. symmetry in H1. apply app_eq_nil in H1. destruct H1 as [-> H1]. cbn [is_nilb] in H2. rewrite andb_true_r in H2. auto.
  - intros [[m [r [H1 H2]]]|[a [m [b [H1 H2]]]]].
    + exists [], m, r. cbn [is_nilb]. rewrite andb_true_r. auto.
    + exists (c :: a), m, b. cbn [is_nilb]. rewrite andb_false_r. split; [now rewrite H1|exact H2].
  - intros [a [m [b [H1 H2]]]]. destruct a as [|d a].
    + left. exists m, b. cbn [is_nilb] in H2. rewrite andb_true_r in H2. auto.
    + right. injection H1 as <- H1. exists a, m, b. cbn [is_nilb] in H2. rewrite andb_false_r in H2. auto.
Qed.

(** ** Equal expressions *)

Definition eqv (E : env) (x y : rxt) : Prop := forall st m r, mt E x st m r <-> mt E y st m r.
Lemma eqv_refl : forall E x, eqv E x x.
Proof. intros E x st m r. tauto. Qed.
Lemma eqv_sym : forall E x y, eqv E x y -> eqv E y x.
Proof. intros E x y H st m r. symmetry. apply H. Qed.
Lemma eqv_trans : forall E x y z, eqv E x y -> eqv E y z -> eqv E x z.
Proof. intros E x y z H1 H2 st m r. rewrite (H1 st m r). apply H2. Qed.
Lemma cat_iff : forall E a b st m r, mt E (XCat a b) st m r <-> exists m1 m2, m = m1 ++ m2 /\ mt E a st m1 (m2 ++ r) /\ mt E b (st && is_nilb m1) m2 r.
Proof.
  intros E a b st m r. split.
  - intros H. inversion H; subst. eauto.
  - intros [m1 [m2 [-> [H1 H2]]]]. now apply mt_cat.
Qed.
Lemma alt_iff : forall E a b st m r, mt E (XAlt a b) st m r <-> mt E a st m r \/ mt E b st m r.
Proof. intros E a b st m r. split; [intros H; inversion H; subst; auto|]. intros [H|H]; [now apply mt_left|now apply mt_right]. Qed.
Lemma empty_iff : forall E st m r, mt E XEmpty st m r <-> m = [].
Proof. intros E st m r. split; [intros H; now inversion H|]. intros ->. constructor. Qed.
Lemma cat_eqv : forall E a a' b b', eqv E a a' -> eqv E b b' -> eqv E (XCat a b) (XCat a' b').
Proof.
  intros E a a' b b' Ha Hb st m r. rewrite !cat_iff. split; intros [m1 [m2 [-> [H1 H2]]]]; exists m1, m2; (split; [reflexivity|]); split; try (now apply Ha); now apply Hb.
Qed.
Lemma alt_eqv : forall E a a' b b', eqv E a a' -> eqv E b b' -> eqv E (XAlt a b) (XAlt a' b').
Proof. intros E a a' b b' Ha Hb st m r. rewrite !alt_iff. rewrite (Ha st m r), (Hb st m r). tauto. Qed.
Lemma star_half : forall E a a' st m r, eqv E a a' -> mt E (XStar a) st m r -> mt E (XStar a') st m r.
Proof.
  intros E a a' st m r Ha H. remember (XStar a) as x eqn:Q. induction H as [| | | | | | |b st r|b st m n r H1 IH1 H2 IH2]; try discriminate; [constructor|].
  injection Q as ->. apply mt_more; [now apply Ha|now apply IH2].
Qed.
Lemma star_eqv : forall E a a', eqv E a a' -> eqv E (XStar a) (XStar a').
Proof. intros E a a' Ha st m r. split; apply star_half; [exact Ha|now apply eqv_sym]. Qed.
Lemma cat_assoc : forall E a b c, eqv E (XCat (XCat a b) c) (XCat a (XCat b c)).
Proof.
  intros E a b c st m r. split; rewrite cat_iff.
  - intros [m1 [m2 [-> [H1 H2]]]]. apply cat_iff in H1. destruct H1 as [m3 [m4 [-> [H1 H3]]]]. apply cat_iff. exists m3, (m4 ++ m2).
    rewrite <- !app_assoc. split; [reflexivity|]. split; [exact H1|]. apply cat_iff. exists m4, m2. rewrite nilb_app, andb_assoc in H2. auto.
  - intros [m1 [m2 [-> [H1 H2]]]]. apply cat_iff in H2. destruct H2 as [m3 [m4 [-> [H2 H3]]]]. apply cat_iff. exists (m1 ++ m3), m4.
    rewrite <- !app_assoc in *. split; [reflexivity|]. rewrite nilb_app, andb_assoc. split; [|exact H3]. apply cat_iff. exists m1, m3. auto.
Qed.
Lemma cat_empty_l : forall E a, eqv E (XCat XEmpty a) a.
Proof.
  intros E a st m r. rewrite cat_iff. split.
  - intros [m1 [m2 [-> [H1 H2]]]]. apply empty_iff in H1. subst m1. cbn [is_nilb] in H2. now rewrite andb_true_r in H2.
  - intros H. exists [], m. cbn [is_nilb]. rewrite andb_true_r. repeat split; [constructor|exact H].
Qed.
Lemma cat_empty_r : forall E a, eqv E (XCat a XEmpty) a.
Proof.
  intros E a st m r. rewrite cat_iff. split.
  - intros [m1 [m2 [-> [H1 H2]]]]. apply empty_iff in H2. subst m2. now rewrite app_nil_r.
  - intros H. exists m, []. rewrite app_nil_r. repeat split; [exact H|constructor].
Qed.
Lemma alt_assoc : forall E a b c, eqv E (XAlt (XAlt a b) c) (XAlt a (XAlt b c)).
Proof. intros E a b c st m r. rewrite !alt_iff. tauto. Qed.

(** ** Reading *)

Lemma run_app : forall u v s, x_run s (u ++ v) = do s' <- x_run s u; x_run s' v.
Proof. induction u as [|c u IH]; intros v s; [reflexivity|]. cbn [app x_run]. destruct (x_step s c) as [s'|e]; [apply IH|reflexivity]. Qed.
Definition at_text (f : xframe) (stk : list xframe) : xstate := {| x_mode := MText; x_frame := f; x_stack := stk |}.
Definition boundary_l : rxt := XAlt (XCat XEmpty (XOne KNotWord)) (XCat XEmpty XBol).
Definition boundary_r : rxt := XAlt (XCat XEmpty (XOne KNotWord)) (XCat XEmpty XEol).
Lemma run_left : forall f stk, x_run (at_text f stk) (lit "([^\w]|^)") = Ok (at_text (x_push f boundary_l XPlain) stk).
Proof. reflexivity. Qed.
Lemma run_right : forall f stk, x_run (at_text f stk) (lit "([^\w]|$)") = Ok (at_text (x_push f boundary_r XPlain) stk).
Proof. reflexivity. Qed.
Lemma seq_push : forall f x k, x_seq (x_push f x k) = XCat (x_seq f) x.
Proof. reflexivity. Qed.
Lemma left_iff : forall E st m r, mt E boundary_l st m r <-> (m = [] /\ st = true) \/ exists c, m = [c] /\ wordc E c = false.
Proof.
  intros E st m r. unfold boundary_l. rewrite alt_iff. rewrite (cat_empty_l E (XOne KNotWord) st m r), (cat_empty_l E XBol st m r). split.
  - intros [H|H]; inversion H; subst; auto. right. eexists. split; [reflexivity|]. cbn [in_class] in *. now apply negb_true_iff.
  - intros [[-> ->]|[c [-> H]]]; [right; constructor|left]. constructor. cbn [in_class]. now rewrite H.
Qed.
Lemma right_iff : forall E st m r, mt E boundary_r st m r <-> (m = [] /\ (r = [] \/ r = [c_nl])) \/ exists c, m = [c] /\ wordc E c = false.
Proof.
  intros E st m r. unfold boundary_r. rewrite alt_iff. rewrite (cat_empty_l E (XOne KNotWord) st m r), (cat_empty_l E XEol st m r). split.
  - intros [H|H]; inversion H; subst; auto. right. eexists. split; [reflexivity|]. cbn [in_class] in *. now apply negb_true_iff.
  - intros [[-> H]|[c [-> H]]]; [right; now constructor|left]. constructor. cbn [in_class]. now rewrite H.
Qed.
(** No word character before, and none after. *)
Definition free_before (E : env) (a : str) : Prop := forall x c, a = x ++ [c] -> wordc E c = false.
Definition free_after (E : env) (b : str) : Prop := forall c x, b = c :: x -> wordc E c = false.
Lemma before_iff : forall E (P : bool -> str -> str -> Prop) s,
  (exists a m b m1 m2, s = a ++ m ++ b /\ m = m1 ++ m2 /\ mt E boundary_l (true && is_nilb a) m1 (m2 ++ b) /\ P (is_nilb a && is_nilb m1) m2 b) <->
  (exists a m b, s = a ++ m ++ b /\ free_before E a /\ P (is_nilb a) m b).
Proof.
  intros E P s. split.
  - intros [a [m [b [m1 [m2 [-> [-> [H1 H2]]]]]]]]. exists (a ++ m1), m2, b. rewrite <- !app_assoc. split; [reflexivity|]. rewrite nilb_app. split; [|exact H2].
    apply left_iff in H1. destruct H1 as [[-> H1]|[c [-> H1]]]; intros x d Q.
    + destruct a; [|discriminate H1]. destruct x; discriminate.
    + apply app_inj_tail in Q. destruct Q as [_ <-]. exact H1.
  - intros [a [m [b [-> [H1 H2]]]]]. destruct a as [|c a _] using rev_ind.
    + exists [], m, b, [], m. repeat split; auto. apply left_iff. auto.
    + exists a, (c :: m), b, [c], m. rewrite <- app_assoc. repeat split.
      * apply left_iff. right. exists c. split; [reflexivity|]. apply (H1 a c eq_refl).
      * rewrite nilb_app in H2. exact H2.
Qed.
Lemma after_iff_free : forall E b st, (exists m2 r, b = m2 ++ r /\ mt E boundary_r st m2 r) <-> free_after E b.
Proof.
  intros E b st. split.
  - intros [m2 [r [-> H]]] c x Q. apply right_iff in H. destruct H as [[-> [-> | ->]]|[d [-> H]]].
    + discriminate Q.
    + injection Q as <- <-. reflexivity.
    + injection Q as <- <-. exact H.
  - intros H. destruct b as [|c b].
    + exists [], []. split; [reflexivity|]. apply right_iff. auto.
    + exists [c], b. split; [reflexivity|]. apply right_iff. right. exists c. split; [reflexivity|]. apply (H c b eq_refl).
Qed.
(** The whole expression of has(), for a word that adds one branch or is one. *)
Lemma search_word : forall E x s, (exists a m b, s = a ++ m ++ b /\ mt E (XCat (XCat boundary_l x) boundary_r) (true && is_nilb a) m b) <->
  exists a m b, s = a ++ m ++ b /\ free_before E a /\ mt E x (is_nilb a) m b /\ free_after E b.
Proof.
  intros E x s. transitivity (exists a m b, s = a ++ m ++ b /\ free_before E a /\ mt E (XCat x boundary_r) (is_nilb a) m b).
  - rewrite <- (before_iff E (mt E (XCat x boundary_r)) s). split.
    + intros [a [m [b [H1 H2]]]]. apply cat_assoc, cat_iff in H2. destruct H2 as [m1 [m2 [H2 [H3 H4]]]]. exists a, m, b, m1, m2. auto.
    + intros [a [m [b [m1 [m2 [H1 [H2 [H3 H4]]]]]]]]. exists a, m, b. split; [exact H1|]. apply cat_assoc, cat_iff. exists m1, m2. auto.
  - split.
    + intros [a [m [b [-> [H2 H3]]]]]. apply cat_iff in H3. destruct H3 as [m1 [m2 [-> [H3 H4]]]]. exists a, m1, (m2 ++ b).
      rewrite <- app_assoc. repeat split; auto. apply (after_iff_free E (m2 ++ b) (is_nilb a && is_nilb m1)). eauto.
    + intros [a [m [b [-> [H2 [H3 H4]]]]]]. apply (after_iff_free E b (is_nilb a && is_nilb m)) in H4. destruct H4 as [m2 [r [-> H4]]].
      exists a, (m ++ m2), r. rewrite <- app_assoc. repeat split; auto. apply cat_iff. exists m, m2. auto.
Qed.
Lemma search_first : forall E x s, (exists a m b, s = a ++ m ++ b /\ mt E (XCat boundary_l x) (true && is_nilb a) m b) <->
  exists a m b, s = a ++ m ++ b /\ free_before E a /\ mt E x (is_nilb a) m b.
Proof.
  intros E x s. rewrite <- (before_iff E (mt E x) s). split.
  - intros [a [m [b [H1 H2]]]]. apply cat_iff in H2. destruct H2 as [m1 [m2 [H2 [H3 H4]]]]. exists a, m, b, m1, m2. auto.
  - intros [a [m [b [m1 [m2 [H1 [H2 [H3 H4]]]]]]]]. exists a, m, b. split; [exact H1|]. apply cat_iff. exists m1, m2. auto.
Qed.
Lemma search_last : forall E x s, (exists a m b, s = a ++ m ++ b /\ mt E (XCat x boundary_r) (true && is_nilb a) m b) <->
  exists a m b, s = a ++ m ++ b /\ mt E x (is_nilb a) m b /\ free_after E b.
Proof.
  intros E x s. split.
  - intros [a [m [b [-> H3]]]]. apply cat_iff in H3. destruct H3 as [m1 [m2 [-> [H3 H4]]]]. exists a, m1, (m2 ++ b).
    rewrite <- app_assoc. repeat split; auto. apply (after_iff_free E (m2 ++ b) (is_nilb a && is_nilb m1)). eauto.
  - intros [a [m [b [-> [H3 H4]]]]]. apply (after_iff_free E b (is_nilb a && is_nilb m)) in H4. destruct H4 as [m2 [r [-> H4]]].
    exists a, (m ++ m2), r. rewrite <- app_assoc. repeat split; auto. apply cat_iff. exists m, m2. auto.
Qed.
Lemma search_eqv : forall E x y s, eqv E x y -> (x_search E x true s = true <-> exists a m b, s = a ++ m ++ b /\ mt E y (true && is_nilb a) m b).
Proof. intros E x y s H. rewrite x_search_iff. split; intros [a [m [b [H1 H2]]]]; exists a, m, b; (split; [exact H1|]); now apply H. Qed.
(** A word that is read as one branch. *)
Lemma one_branch : forall E w x, (forall f, exists f', x_run (at_text f []) w = Ok (at_text f' []) /\ xf_alts f' = xf_alts f /\ eqv E (x_seq f') (XCat (x_seq f) x)) ->
  exists y, x_parse (lit "([^\w]|^)" ++ w ++ lit "([^\w]|$)") = Ok y /\
    forall s, x_search E y true s = true <-> exists a m b, s = a ++ m ++ b /\ free_before E a /\ mt E x (is_nilb a) m b /\ free_after E b.
Proof.
  intros E w x H. destruct (H (x_push x_new boundary_l XPlain)) as [f' [R [A Q]]].
  exists (XCat (x_seq f') boundary_r). split.
  - unfold x_parse. fold (at_text x_new []). rewrite run_app, run_left. cbn [bind]. rewrite run_app, R. cbn [bind]. rewrite run_right. cbn [bind at_text x_mode x_stack x_frame].
    unfold x_total. cbn [x_push xf_alts]. rewrite A. reflexivity.
  - intros s. rewrite (search_eqv E _ (XCat (XCat boundary_l x) boundary_r)); [apply search_word|].
    apply cat_eqv; [|apply eqv_refl]. eapply eqv_trans; [exact Q|]. apply cat_eqv; [|apply eqv_refl]. apply cat_empty_l.
Qed.
(** One that is read as two. *)
Lemma two_branches : forall E u v x y,
  (forall f, exists f', x_run (at_text f []) u = Ok (at_text f' []) /\ xf_alts f' = xf_alts f /\ eqv E (x_seq f') (XCat (x_seq f) x)) ->
  (forall f, exists f', x_run (at_text f []) v = Ok (at_text f' []) /\ xf_alts f' = xf_alts f /\ eqv E (x_seq f') (XCat (x_seq f) y)) ->
  exists z, x_parse (lit "([^\w]|^)" ++ (u ++ lit "|" ++ v) ++ lit "([^\w]|$)") = Ok z /\
    forall s, x_search E z true s = true <->
      (exists a m b, s = a ++ m ++ b /\ free_before E a /\ mt E x (is_nilb a) m b) \/ (exists a m b, s = a ++ m ++ b /\ mt E y (is_nilb a) m b /\ free_after E b).
Proof.
  intros E u v x y Hu Hv. destruct (Hu (x_push x_new boundary_l XPlain)) as [f1 [R1 [A1 Q1]]].
  destruct (Hv {| xf_alts := Some (x_total f1); xf_done := XEmpty; xf_last := None |}) as [f2 [R2 [A2 Q2]]].
  exists (XAlt (x_total f1) (XCat (x_seq f2) boundary_r)). split.
  - unfold x_parse. fold (at_text x_new []). rewrite run_app, run_left. cbn [bind]. rewrite run_app, run_app, R1. cbn [bind].
    rewrite run_app. change (x_run (at_text f1 []) (lit "|")) with (Ok (at_text {| xf_alts := Some (x_total f1); xf_done := XEmpty; xf_last := None |} [])). cbn [bind].
    rewrite R2. cbn [bind]. rewrite run_right. cbn [bind at_text x_mode x_stack x_frame].
    unfold x_total at 1. cbn [x_push xf_alts]. rewrite A2. reflexivity.
  - intros s. rewrite (search_eqv E _ (XAlt (XCat boundary_l x) (XCat y boundary_r))).
    + rewrite <- search_first, <- search_last. split.
      * intros [a [m [b [H1 H2]]]]. apply alt_iff in H2. destruct H2 as [H2|H2]; [left|right]; eauto 6.
      * intros [[a [m [b [H1 H2]]]]|[a [m [b [H1 H2]]]]]; exists a, m, b; (split; [exact H1|]); apply alt_iff; auto.
    + apply alt_eqv.
      * unfold x_total. rewrite A1. cbn [x_push xf_alts x_new]. eapply eqv_trans; [exact Q1|]. apply cat_eqv; [|apply eqv_refl]. apply cat_empty_l.
      * apply cat_eqv; [|apply eqv_refl]. eapply eqv_trans; [exact Q2|]. apply cat_empty_l.
Qed.
