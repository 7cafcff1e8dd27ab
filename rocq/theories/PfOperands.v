(** Lemmas: the operands of & and |. *)
From Verif Require Import Base NumFmt Value Eq Render ParseArgs Build SpecLogic SpecConds SpecRelations SpecOperands.

Lemma cond_bool : forall v, a_condition v <-> is_condition v = true.
Proof.
  intros v. unfold a_condition. split.
  - intros [(k & c & r & x & ->)|[(l & ->)|(o & a & b & ->)]]; reflexivity.
  - destruct v; try discriminate; intros _; eauto 10.
Qed.
Definition is_select (v : val) : bool := match v with VSelect _ | VUnion _ _ _ => true | _ => false end.
Lemma select_bool : forall v, a_select v <-> is_select v = true.
Proof.
  intros v. unfold a_select. split.
  - intros [(q & ->)|(t & a & b & ->)]; reflexivity.
  - destruct v; try discriminate; intros _; eauto 10.
Qed.
Lemma select_not_condition : forall v, is_select v = true -> is_condition v = false.
Proof. intros v. destruct v; try discriminate; reflexivity. Qed.
Lemma binop_cases : forall o a b,
  (is_condition a = true /\ is_condition b = true /\ py_binop o a b = Ok (VCoC o a b)) \/
  (is_select a = true /\ is_sql b = true /\ exists t, py_binop o a b = Ok (VUnion t a b)) \/
  ((is_condition a = true /\ is_condition b = false \/ is_condition a = false /\ is_select a = false) /\ py_binop o a b = Err ETypeError) \/
  (is_select a = true /\ is_sql b = false /\ py_binop o a b = Err EInvalidArgument).
Proof.
  intros o a b. destruct a; try (right; right; left; split; [right; split; reflexivity|reflexivity]);
    try (destruct (is_condition b) eqn:C; [left; cbn; rewrite C; auto|right; right; left; cbn; rewrite C; auto]).
  - destruct (is_sql b) eqn:S; [right; left|right; right; right]; (split; [reflexivity|]; split; [reflexivity|]); unfold py_binop, mk_union, check_type; rewrite S; cbn; eauto.
  - destruct (is_sql b) eqn:S; [right; left|right; right; right]; (split; [reflexivity|]; split; [reflexivity|]); unfold py_binop, mk_union, check_type; rewrite S; cbn; eauto.
Qed.
Lemma first_in : forall e, In (first_object e) (objects e).
Proof. induction e as [v|o l IH r _]; cbn; [auto|]. apply in_or_app. auto. Qed.
(** The class of the result. *)
Lemma result : forall e v, evaluated e = Ok v -> (is_condition v = true <-> Forall a_condition (objects e)) /\ (is_select v = true <-> a_select (first_object e)).
Proof.
  induction e as [u|o l IHl r IHr]; intros v H.
  - injection H as ->. split; [|symmetry; apply select_bool]. cbn. rewrite <- cond_bool. split; [intros; constructor; auto|intros F; inversion F; auto].
  - cbn [evaluated] in H. destruct (evaluated l) as [a|] eqn:L; [|discriminate]. destruct (evaluated r) as [b|] eqn:R; [|discriminate]. cbn [bind] in H. destruct (IHl _ eq_refl) as [CL SL]. destruct (IHr _ eq_refl) as [CR _].
    cbn [objects first_object]. destruct (binop_cases o a b) as [(A & B & E)|[(A & B & t & E)|[(A & E)|(A & B & E)]]]; rewrite E in H; try discriminate; injection H as <-.
    + split; [split; [intros _; apply Forall_app; split; [apply CL; exact A|apply CR; exact B]|reflexivity]|]. split; [discriminate|]. intros X. apply SL in X. apply select_not_condition in X. congruence.
    + split; [|split; [intros _; apply SL; exact A|reflexivity]]. split; [discriminate|]. intros X. apply Forall_app in X. destruct X as [X _]. apply CL in X. apply select_not_condition in A. congruence.
Qed.
Lemma leaf_sql : forall e v, evaluated e = Ok v -> is_sql v = true <-> (forall u, e = PObj u -> is_sql_object u).
Proof.
  intros [u|o l r] v H.
  - injection H as ->. split; [intros X u E; injection E as <-; exact X|intros X; apply X; reflexivity].
  - split; [discriminate|]. intros _. cbn [evaluated] in H. destruct (evaluated l) as [a|]; [|discriminate]. destruct (evaluated r) as [b|]; [|discriminate]. cbn [bind] in H.
    destruct (binop_cases o a b) as [(A & B & E)|[(A & B & t & E)|[(A & E)|(A & B & E)]]]; rewrite E in H; try discriminate; injection H as <-; reflexivity.
Qed.
Lemma conditions_evaluate : forall e, Forall a_condition (objects e) -> exists v, evaluated e = Ok v.
Proof.
  induction e as [u|o l IHl r IHr]; intros F; [eexists; reflexivity|]. cbn [objects] in F. apply Forall_app in F. destruct F as [FL FR]. destruct (IHl FL) as [a A]. destruct (IHr FR) as [b B].
  cbn [evaluated]. rewrite A, B. cbn [bind]. apply (proj2 (proj1 (result _ _ A))) in FL. apply (proj2 (proj1 (result _ _ B))) in FR.
  destruct (binop_cases o a b) as [(_ & _ & E)|[(S & _)|[([(_ & N)|(N & _)] & _)|(S & _)]]]; [eexists; exact E| | | |]; try (apply select_not_condition in S); congruence.
Qed.
Lemma operands_fit : forall e, (exists v, evaluated e = Ok v) <-> fits e.
Proof.
  intros e. split.
  - induction e as [u|o l IHl r IHr]; intros [v H]; [constructor|]. cbn [evaluated] in H. destruct (evaluated l) as [a|] eqn:L; [|discriminate]. destruct (evaluated r) as [b|] eqn:R; [|discriminate]. cbn [bind] in H.
    destruct (binop_cases o a b) as [(A & B & E)|[(A & B & t & E)|[(A & E)|(A & B & E)]]]; rewrite E in H; try discriminate.
    + apply fi_conditions; [apply (result _ _ L); exact A|apply (result _ _ R); exact B].
    + apply fi_selects; [apply IHl; eauto|apply IHr; eauto|apply (result _ _ L); exact A|apply (leaf_sql _ _ R); exact B].
  - intros F. induction F as [v|o l r FL FR|o l r FL IHl FR IHr S Q]; [eexists; reflexivity|apply conditions_evaluate; cbn; apply Forall_app; auto|].
    destruct IHl as [a A]. destruct IHr as [b B]. cbn [evaluated]. rewrite A, B. cbn [bind]. apply (result _ _ A) in S. apply (leaf_sql _ _ B) in Q.
    destruct (binop_cases o a b) as [(C & _)|[(_ & _ & t & E)|[([(C & _)|(_ & N)] & _)|(_ & N & _)]]]; [|eexists; exact E| | |]; pose proof (select_not_condition _ S); congruence.
Qed.
Lemma operands_error : forall e x, evaluated e = Err x -> x = ETypeError \/ x = EInvalidArgument.
Proof.
  induction e as [u|o l IHl r IHr]; intros x H; [discriminate|]. cbn [evaluated] in H. destruct (evaluated l) as [a|]; [|injection H as <-; auto]. destruct (evaluated r) as [b|]; [|injection H as <-; auto]. cbn [bind] in H.
  destruct (binop_cases o a b) as [(_ & _ & E)|[(_ & _ & t & E)|[(_ & E)|(_ & _ & E)]]]; rewrite E in H; try discriminate; injection H as <-; auto.
Qed.
Lemma operands_all : forall e, ((exists v, evaluated e = Ok v) <-> fits e) /\ (~ fits e -> evaluated e = Err ETypeError \/ evaluated e = Err EInvalidArgument).
Proof.
  intros e. split; [apply operands_fit|]. intros N. destruct (evaluated e) as [v|x] eqn:E; [exfalso; apply N; apply operands_fit; eauto|]. destruct (operands_error _ _ E) as [->| ->]; auto.
Qed.
Lemma conditions_mean : forall e v t, Forall a_condition (objects e) -> evaluated e = Ok v -> a_condition v /\ meaning t v = says_expr t e.
Proof.
  intros e v t F H. split; [apply cond_bool; apply (result _ _ H); exact F|]. revert v F H. induction e as [u|o l IHl r IHr]; intros v F H; [injection H as ->; reflexivity|].
  cbn [objects] in F. apply Forall_app in F. destruct F as [FL FR]. destruct (conditions_evaluate _ FL) as [a A]. destruct (conditions_evaluate _ FR) as [b B]. cbn [evaluated] in H. rewrite A, B in H. cbn [bind] in H.
  apply (proj2 (proj1 (result _ _ A))) in FL as CA. apply (proj2 (proj1 (result _ _ B))) in FR as CB.
  destruct (binop_cases o a b) as [(_ & _ & E)|[(S & _)|[([(_ & N)|(N & _)] & _)|(S & _)]]]; try (apply select_not_condition in S); try congruence. rewrite E in H. injection H as <-.
  destruct o; cbn [meaning says_expr]; rewrite (IHl _ FL A), (IHr _ FR B); reflexivity.
Qed.
