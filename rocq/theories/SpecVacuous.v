(** Specification: conditions that say nothing. *)
From Verif Require Import Base Value SpecRef.
Open Scope N_scope.

(** Arguments with which where() adds no condition: none, an empty list or tuple, an
    empty dict (keywords beside a dict are not read). *)
Definition asks_nothing (args : list val) (kwds : list (str * val)) : Prop :=
  (args = [] /\ kwds = []) \/
  (args = [VSeq KList []] /\ kwds = []) \/ (args = [VSeq KTuple []] /\ kwds = []) \/
  args = [VDict []].

(** SQL objects that print nothing but whitespace. *)
Inductive blank : val -> Prop :=
| blank_C : forall s, Forall whitespace s -> blank (VCustom s)              (* C(' ') *)
| blank_R_dots : forall s, Forall (eq 46) s -> blank (VSqlR (VStr s))       (* R(''), R('.') *)
| blank_V : forall x, blank x -> blank (VSqlV x)                            (* V(C('')) *)
| blank_R : forall x, blank x -> blank (VSqlR x)
| blank_Q : blank (VConds [])                                               (* Q() *)
| blank_Q1 : forall x, blank x -> blank (VConds [x]).                       (* Q(C('')) *)

(** A Q object holds SQL objects, never bare data: as Q() makes them. *)
Inductive holds_objects : val -> Prop :=
| ho_Q : forall ps, (forall p, In p ps -> is_sql p = true) -> (forall p, In p ps -> holds_objects p) -> holds_objects (VConds ps)
| ho_V : forall x, holds_objects x -> holds_objects (VSqlV x)
| ho_R : forall x, holds_objects x -> holds_objects (VSqlR x)
| ho_other : forall x, match x with VConds _ | VSqlV _ | VSqlR _ => False | _ => True end -> holds_objects x.
