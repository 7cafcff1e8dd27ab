(** Vocabulary for the module-level functions. *)
From Verif Require Import Base Value Backend SpecRead SpecRef.
Open Scope N_scope.

(** A name of one part: not empty, no dot, no quote, not *. *)
Definition one_part (b : backend) (n : str) : Prop := n <> [] /\ ~ In 46 n /\ ~ In (quote_of b) n /\ n <> [42].
(** The name in quotes. *)
Definition in_quotes (b : backend) (n : str) : str := [quote_of b] ++ n ++ [quote_of b].
Fixpoint with_commas (l : list str) : str :=
  match l with
  | [] => []
  | [x] => x
  | x :: r => x ++ [44; 32] ++ with_commas r
  end.
Definition names_text (b : backend) (ns : list str) : str := with_commas (map (in_quotes b) ns).
