(** Specification: equality of ON conditions and of queries. *)
From Verif Require Import Base NumFmt Value Backend Eq Render SpecClauses.
Open Scope N_scope.

(** ** ON conditions between columns *)
Definition on_cond (a : str) (r : relk) (b : str) : val := VCond KOn (VStr a) r (VStr b).
(** a r b says the same as b r' a. *)
Inductive mirror : relk -> relk -> Prop :=
| mi_eq : mirror REq REq | mi_ne : mirror RNe RNe
| mi_lt : mirror RLt RGt | mi_gt : mirror RGt RLt | mi_le : mirror RLe RGe | mi_ge : mirror RGe RLe.
Inductive same_on : str * relk * str -> str * relk * str -> Prop :=
| so_same : forall a r b, same_on (a, r, b) (a, r, b)
| so_mirror : forall a r b r', mirror r r' -> same_on (a, r, b) (b, r', a).
(** A join of a table by its name, with ON conditions between columns. *)
Definition column_join (j : join val) : Prop :=
  (exists n, j_name j = VStr n) /\ (j_alias j = VNone \/ exists a, j_alias j = VStr a) /\
  Forall (fun p => exists a r b, p = on_cond a r b) (j_ons j).

(** ** Queries *)
(** Objects equal to themselves: no NaN, no object whose rendering fails; sets, dicts and
    generators inside lists are left out. *)
Definition not_odd (v : val) : Prop :=
  match v with
  | VFloat NNan | VDec NNan | VDict _ => False
  | VSeq k _ => In k [KList; KTuple; KRange]
  | _ => True
  end.
Inductive comparable (E : env) : val -> Prop :=
| cm_text : forall v t, textual_eq v = true -> text E v = Ok t -> comparable E v
| cm_other : forall v, textual_eq v = false -> not_odd v -> (forall x, In x (children v) -> comparable E x) -> comparable E v.
(** Objects of which no two different ones are equal: no bool, float, Decimal (1 == True == 1.0),
    no objects compared by text, no ON conditions (mirror images); no queries other than select. *)
Definition exact_kind (v : val) : Prop :=
  match v with
  | VBool _ | VFloat _ | VDec _ | VDict _ | VCond KOn _ _ _ | VInsert _ | VUpdate _ | VDelete _ => False
  | VSeq k _ => In k [KList; KTuple; KRange]
  | _ => textual_eq v = false
  end.
Inductive exact : val -> Prop :=
| ex : forall v, exact_kind v -> (forall x, In x (children v) -> exact x) -> exact v.
