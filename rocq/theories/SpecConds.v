(** Specification: what a Python expression built from Q objects means. *)
From Verif Require Import Base Value SpecLogic.
Open Scope N_scope.

(** Trees of conditions without empty Q() and without custom SQL.  Atoms are
    single conditions (column, relation, value) and EXISTS(subselect). *)
Inductive cond_tree : val -> Prop :=
| ct_cond : forall c r v, cond_tree (VCond KWhere c r v)
| ct_exists : forall v, cond_tree (VExists v)
| ct_q : forall ps, ps <> [] -> Forall cond_tree ps -> cond_tree (VConds ps)
| ct_bin : forall o a b, cond_tree a -> cond_tree b -> cond_tree (VCoC o a b)
| ct_not : forall ps, ps <> [] -> Forall cond_tree ps -> cond_tree (VNot ps).

(** Q(a, b, ...) is the conjunction of its conditions; & and | are AND and OR;
    Not( ... ) negates the conjunction.  [v] gives the truth of the atoms. *)
Fixpoint meaning (v : val -> t3) (x : val) : t3 :=
  match x with
  | VConds ps => fold_right (fun p t => and3 (meaning v p) t) (Some true) ps
  | VCoC OpAnd a b => and3 (meaning v a) (meaning v b)
  | VCoC OpOr a b => or3 (meaning v a) (meaning v b)
  | VNot ps => not3 (fold_right (fun p t => and3 (meaning v p) t) (Some true) ps)
  | _ => v x
  end.
