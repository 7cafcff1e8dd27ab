(** Histories: a program makes calls on one query object, one after the other, and
    catches the exceptions.  Each call comes with its own world, so the backend may
    be reconfigured between calls. *)
From Verif Require Import Base Value Render ParseArgs Build.
Definition calls {Q Op} (step : world -> Q -> Op -> Q * outcome) (q : Q) (H : list (world * Op)) : Q :=
  fold_left (fun q wo => fst (step (fst wo) q (snd wo))) H q.
Definition prefix {A} (a b : list A) : Prop := exists c, b = a ++ c.
(** A sequence of calls where(c, v), with the backend of [E] throughout. *)
Definition where_calls (E : env) (ps : list val) (l : list (val * val)) : list val :=
  fold_left (fun ps o => fst (conds_where (pure_world E) KWhere ps [fst o; snd o] [])) l ps.
(** The environment with another configured backend. *)
Definition with_be (E : env) (b : backend) : env := MkEnv b (e_pystr E) (e_upper E) (e_lower E) (e_word E).
(** A program inside one Python process: only the backend may change between calls. *)
Definition program {Op} (E : env) (H : list (backend * Op)) : list (world * Op) :=
  map (fun bo => (pure_world (with_be E (fst bo)), snd bo)) H.
