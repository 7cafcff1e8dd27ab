(** Specification: ORDER BY, LIMIT, OFFSET, INTO OUTFILE and FOR UPDATE at the end of the operands
    of unions.  SpecNested.v: the statements; SpecSays.v: what the library's objects stand for. *)
From Verif Require Import Base Value SpecSql SpecNested SpecSays.
Open Scope N_scope.

(** The SELECTs of a union, however nested, from left to right, each with the kind of union before it. *)
Inductive operands : val -> selq val -> list (uniont * selq val) -> Prop :=
| opd_one : forall q, operands (VSelect q) q []
| opd_union : forall t x y q l q' l', operands x q l -> operands y q' l' -> operands (VUnion t x y) q (l ++ (t, q') :: l').

(** A SELECT without any of these clauses. *)
Definition no_clauses (n : nquery) : bool :=
  match n with NQuery _ [] [] None None None false => true | _ => false end.
Definition core_of (n : nquery) : ncore := match n with NQuery c _ _ _ _ _ _ => c end.
(** The SELECTs joined, the clauses of the last one being those of the whole. *)
Definition joined (n : nquery) (l : list (bool * nquery)) : nquery :=
  match last (map snd l) n with
  | NQuery _ _ ord lim off out fu => NQuery (core_of n) (map (fun p => (fst p, core_of (snd p))) l) ord lim off out fu
  end.

(** ** INTO OUTFILE *)
(** Of the option calls: the file, and OPTIONALLY ENCLOSED BY only after FIELDS TERMINATED BY and
    not together with LINES TERMINATED BY. *)
Definition accepted_options (fields lines encl : option val) : bool :=
  match encl with
  | None => true
  | Some _ => match fields, lines with Some _, None => true | _, _ => false end
  end.
