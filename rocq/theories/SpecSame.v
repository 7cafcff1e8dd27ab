(** Specification: objects that are equal and have the same text although they contain SQL
    objects, which are compared by text. *)
From Verif Require Import Base NumFmt Value Backend Eq Render SpecEquality.
Open Scope N_scope.

(** The parts of an object, down to the objects compared by text. *)
Inductive within : val -> val -> Prop :=
| wi_self : forall v, within v v
| wi_child : forall v x w, textual_eq w = false -> In x (children w) -> within v x -> within v w.
Definition inside (v w : val) : Prop := textual_eq w = false /\ exists x, In x (children w) /\ within v x.
(** No bool, float, Decimal (1 == True == 1.0), dict or set; lists of data only. *)
Definition steady (v : val) : Prop :=
  match v with
  | VBool _ | VFloat _ | VDec _ | VDict _ | VInsert _ | VUpdate _ | VDelete _ => False
  | VSeq _ _ | VRel _ _ => exact v
  | _ => True
  end.
(** An SQL object whose text is a given str, or is the text of an object compared part by part. *)
Definition confusable (E : env) (u w : val) : Prop :=
  textual_eq u = true /\ textual_eq w = false /\
  exists t, text E u = Ok t /\ (w = VStr t \/ is_sql w = true /\ text E w = Ok t).
(** ON conditions  a = b  and  b = a. *)
Definition mirrored (E : env) (p q : val) : Prop :=
  exists c k s v k', p = VCond KOn c k (VStr s) /\ q = VCond KOn (VStr s) k' v /\ mirror k k' /\ py_eq E c v = Ok true.
Definition distinguishable (E : env) (a b : val) : Prop :=
  (forall v, inside v a \/ inside v b -> steady v) /\
  (forall u w, within u a \/ within u b -> within w a \/ within w b -> ~ confusable E u w) /\
  (forall p q, within p a \/ within p b -> within q a \/ within q b -> mirrored E p q -> p = q).
(** The fields of a query that == does not look at. *)
Definition same_rest (a b : val) : Prop :=
  match a, b with
  | VInsert p, VInsert q => i_conflict p = i_conflict q
  | VUpdate p, VUpdate q => u_allow p = u_allow q
  | VDelete p, VDelete q => d_allow p = d_allow q
  | _, _ => True
  end.
(** Queries, conditions and assignments: the objects compared part by part. *)
Definition by_parts (v : val) : Prop :=
  match v with VSelect _ | VUnion _ _ _ | VInsert _ | VUpdate _ | VDelete _ | VCond _ _ _ _ | VConds _ | VValue _ _ => True | _ => False end.
