(** Specification: renderings for different backends one after another. *)
From Verif Require Import Base Value Backend Render Queries History SpecHistory SpecEffects SpecBackends.

(** Joined tables, their aliases and their ON conditions are compared without
    rendering anything, here and in all parts. *)
Inductive steadily_joined (v : val) : Prop :=
| sj_intro : (forall t x, In t (tables_of v) -> In x (flat_map join_vals (tb_joins t)) -> textless x) ->
    (forall x, In x (children v) -> steadily_joined x) -> steadily_joined v.
(** Any number of renderings, each for any backend. *)
Inductive shown_anywhere (E : env) : val -> val -> Prop :=
| sa_none : forall v, shown_anywhere E v v
| sa_more : forall b v w x, touch (with_be E b) v w -> shown_anywhere E w x -> shown_anywhere E v x.
