(** Specification: the options of a SELECT among other calls. *)
From Verif Require Import Base Value Queries SpecHistory.
Open Scope N_scope.

(** The names of options, each after a space. *)
Definition words (l : list selopt) : str := List.concat (map (fun k => lit " " ++ option_name k) l).
Definition no_option (op : selop) : bool := match op with SOpt _ _ => false | _ => true end.
