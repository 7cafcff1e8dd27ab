(** Lemmas about the grammar of SpecLogic.v: parses exist for AND-lists, and all
    parses of the same items have the same truth value. *)
From Verif Require Import Base SpecLogic.

Lemma and3_assoc : forall a b c, and3 a (and3 b c) = and3 (and3 a b) c.
Proof. intros [[]|] [[]|] [[]|]; reflexivity. Qed.
Lemma or3_assoc : forall a b c, or3 a (or3 b c) = or3 (or3 a b) c.
Proof. intros [[]|] [[]|] [[]|]; reflexivity. Qed.
Lemma and3_true_l : forall a, and3 (Some true) a = a.
Proof. intros [[]|]; reflexivity. Qed.
Lemma and3_true_r : forall a, and3 a (Some true) = a.
Proof. intros [[]|]; reflexivity. Qed.
Lemma or3_false_l : forall a, or3 (Some false) a = a.
Proof. intros [[]|]; reflexivity. Qed.
Lemma or3_false_r : forall a, or3 a (Some false) = a.
Proof. intros [[]|]; reflexivity. Qed.

Section Parse.
  Context {A : Type}.
  Scheme pr_ind := Induction for p_primary Sort Prop
    with fa_ind := Induction for p_factor Sort Prop
    with te_ind := Induction for p_term Sort Prop
    with se_ind := Induction for p_search Sort Prop.
  Combined Scheme parse_ind from pr_ind, fa_ind, te_ind, se_ind.

  (** Terms can be joined by AND. *)
  Lemma term_and : forall (s t : list (item A)) e f, p_term s e -> p_term t f ->
    exists g, p_term (s ++ IAnd :: t) g /\ forall v, bval v g = and3 (bval v e) (bval v f).
  Proof.
    intros s t e f Hs Ht. induction Ht as [t f Hf|t u f g Ht IH Hg].
    - exists (BAnd e f). split; [now apply pt_and|reflexivity].
    - destruct IH as [h [Hh Hv]]. exists (BAnd h g). split.
      + replace (s ++ IAnd :: t ++ IAnd :: u) with ((s ++ IAnd :: t) ++ IAnd :: u)
          by now rewrite <- app_assoc.
        now apply pt_and.
      + intros v. simpl. rewrite Hv. symmetry. apply and3_assoc.
  Qed.

  (** An evaluator that reads the items once, with a stack for parentheses. *)
  Record frame := Fr { f_or : t3; f_and : t3; f_neg : bool }.
  Definition fr0 := Fr (Some false) (Some true) false.
  Definition operand (f : frame) (b : t3) : frame :=
    Fr (f_or f) (and3 (f_and f) (if f_neg f then not3 b else b)) false.
  Fixpoint run (v : A -> t3) (f : frame) (stk : list frame) (l : list (item A)) : t3 :=
    match l with
    | [] => or3 (f_or f) (f_and f)
    | IAtom a :: r => run v (operand f (v a)) stk r
    | INot :: r => run v (Fr (f_or f) (f_and f) true) stk r
    | IAnd :: r => run v f stk r
    | IOr :: r => run v (Fr (or3 (f_or f) (f_and f)) (Some true) false) stk r
    | ILp :: r => run v fr0 (f :: stk) r
    | IRp :: r => match stk with
                  | g :: stk' => run v (operand g (or3 (f_or f) (f_and f))) stk' r
                  | [] => None
                  end
    end.

  Lemma run_parse : forall v,
    (forall s e, p_primary s e -> forall f stk rest,
       run v f stk (s ++ rest) = run v (operand f (bval v e)) stk rest) /\
    (forall s e, p_factor s e -> forall f stk rest, f_neg f = false ->
       run v f stk (s ++ rest) = run v (Fr (f_or f) (and3 (f_and f) (bval v e)) false) stk rest) /\
    (forall s e, p_term s e -> forall f stk rest, f_neg f = false -> f_and f = Some true ->
       run v f stk (s ++ rest) = run v (Fr (f_or f) (bval v e) false) stk rest) /\
    (forall s e, p_search s e -> forall stk rest, exists o a, or3 o a = bval v e /\
       run v fr0 stk (s ++ rest) = run v (Fr o a false) stk rest).
  Proof.
    intros v. apply parse_ind.
    - intros a f stk rest. reflexivity.
    - intros s e H IH f stk rest. simpl. rewrite <- app_assoc.
      destruct (IH (f :: stk) ([IRp] ++ rest)) as [o [a [Ho Hr]]]. rewrite Hr. simpl. now rewrite Ho.
    - intros s e H IH f stk rest Hn. rewrite IH. unfold operand. now rewrite Hn.
    - intros s e H IH f stk rest Hn. simpl. rewrite IH. reflexivity.
    - intros s e H IH f stk rest Hn Ha. rewrite (IH f stk rest Hn), Ha. now rewrite and3_true_l.
    - intros s t e g H IH H' IH' f stk rest Hn Ha. rewrite <- app_assoc.
      rewrite (IH f stk ((IAnd :: t) ++ rest) Hn Ha). simpl. rewrite IH' by reflexivity. reflexivity.
    - intros s e H IH stk rest. exists (Some false), (bval v e). split; [apply or3_false_l|].
      rewrite IH by reflexivity. reflexivity.
    - intros s t e g H IH H' IH' stk rest. rewrite <- app_assoc.
      destruct (IH stk ((IOr :: t) ++ rest)) as [o [a [Ho Hr]]].
      exists (bval v e), (bval v g). split; [reflexivity|]. rewrite Hr. simpl.
      rewrite IH' by reflexivity. simpl. now rewrite Ho.
  Qed.

  Lemma parse_unique : forall (s : list (item A)) e e' v,
    p_search s e -> p_search s e' -> bval v e = bval v e'.
  Proof.
    intros s e e' v H H'. destruct (run_parse v) as [_ [_ [_ R]]].
    destruct (R s e H [] []) as [o [a [Ho Hr]]]. destruct (R s e' H' [] []) as [o' [a' [Ho' Hr']]].
    rewrite Hr in Hr'. simpl in Hr'. congruence.
  Qed.
End Parse.

(** No search condition has an OR where an operand is expected. *)
Section Automaton.
  Context {A : Type}.
  (** [true] = an operand is expected; None = stuck. *)
  Fixpoint auto_run (st : bool) (l : list (item A)) : option bool :=
    match l with
    | [] => Some st
    | i :: r =>
        match i, st with
        | IAtom _, true | IRp, false => auto_run false r
        | INot, true | ILp, true | IAnd, false | IOr, false => auto_run true r
        | _, _ => None
        end
    end.
  Lemma auto_app : forall l st m, auto_run st (l ++ m) =
    match auto_run st l with Some st' => auto_run st' m | None => None end.
  Proof.
    induction l as [|i r IH]; intros st m; [reflexivity|]. simpl.
    destruct i, st; try reflexivity; apply IH.
  Qed.
  Lemma auto_parse :
    (forall (s : list (item A)) e, p_primary s e -> auto_run true s = Some false) /\
    (forall (s : list (item A)) e, p_factor s e -> auto_run true s = Some false) /\
    (forall (s : list (item A)) e, p_term s e -> auto_run true s = Some false) /\
    (forall (s : list (item A)) e, p_search s e -> auto_run true s = Some false).
  Proof.
    apply parse_ind; intros; auto; simpl; rewrite ?auto_app; rewrite ?H, ?H0; simpl; auto.
  Qed.
End Automaton.
