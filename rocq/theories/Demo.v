(** A concrete environment for examples and counterexamples: Python's str() of
    other data is left out (None), non-ASCII letters have no other case. *)
From Verif Require Import Base NumFmt Value Backend Eq Render ParseArgs Build Queries.
Open Scope N_scope.
Definition demo (b : backend) : env :=
  MkEnv b (fun _ => None) (fun c => [c]) (fun c => [c]) (fun _ => true).
Definition demoW (b : backend) : world := pure_world (demo b).
Definition vs (s : string) : val := VStr (lit s).
