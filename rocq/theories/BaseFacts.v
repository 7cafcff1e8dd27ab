(** Facts about the helpers of Base.v (no modelling here). *)
From Coq Require Import Lia.
From Verif Require Import Base.
Open Scope N_scope.

Lemma seqb_eq a b : seqb a b = true <-> a = b.
Proof.
  revert b; induction a as [|x a IH]; intros [|y b]; cbn [seqb]; split; try easy.
  - rewrite andb_true_iff, IH, N.eqb_eq. intros [-> ->]. reflexivity.
  - intros H; injection H as -> ->. rewrite andb_true_iff, IH, N.eqb_eq. auto.
Qed.

Lemma seqb_refl a : seqb a a = true.
Proof. apply seqb_eq. reflexivity. Qed.

Lemma seqb_neq a b : seqb a b = false <-> a <> b.
Proof.
  destruct (seqb a b) eqn:H.
  - apply seqb_eq in H. split; [discriminate | tauto].
  - split; auto. intros _ ->. rewrite seqb_refl in H. discriminate.
Qed.

Definition str_eq_dec (a b : str) : {a = b} + {a <> b} := list_eq_dec N.eq_dec a b.

