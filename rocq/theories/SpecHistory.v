(** Specification: what a history of calls asks for.  Independent of the model's
    states: only the calls and their arguments are looked at. *)
From Verif Require Import Base NumFmt Value Queries SpecRead.
Open Scope N_scope.

(** The answer of the last call for which [f] has one. *)
Definition last_such {A B} (f : A -> option B) (l : list A) : option B :=
  fold_left (fun acc x => match f x with Some b => Some b | None => acc end) l None.

(** ** Confirmation of DELETE and UPDATE without conditions *)
Definition delete_confirmed (ops : list delop) : Prop :=
  last_such (fun op => match op with DAllow => Some true | DForbid => Some false | _ => None end) ops = Some true.
Definition update_confirmed (ops : list updop) : Prop :=
  last_such (fun op => match op with UAllow => Some true | UForbid => Some false | _ => None end) ops = Some true.

(** ** LIMIT and OFFSET: None = no such clause *)
Definition wanted_limit (ops : list selop) : option Z :=
  match last_such (fun op => match op with
                             | SLimit (VInt n) _ => Some (Some n)
                             | SLimit VNone _ => Some None
                             | _ => None end) ops with
  | Some (Some n) => Some n
  | _ => None
  end.
Definition offset_value (n : Z) : option Z := if (n =? 0)%Z then None else Some n.
Definition wanted_offset (ops : list selop) : option Z :=
  match last_such (fun op => match op with
                             | SLimit VNone _ => Some None
                             | SLimit (VInt _) (VInt n) | SOffset (VInt n) => Some (offset_value n)
                             | SOffset VNone => Some None
                             | _ => None end) ops with
  | Some (Some n) => Some n
  | _ => None
  end.
(** [t] is the decimal numeral of [n]. *)
Definition numeral (n : Z) (t : str) : Prop := read_int t = Some n /\ canonical_int t.
(** The text of the clause: [] when absent. *)
Inductive limit_text : option Z -> option Z -> str -> Prop :=
| lt_none : limit_text None None []
| lt_limit : forall n t, numeral n t -> limit_text (Some n) None (lit " LIMIT " ++ t)
| lt_offset : forall n t, numeral n t -> limit_text None (Some n) (lit " OFFSET " ++ t)
| lt_both : forall n m t u, numeral n t -> numeral m u ->
    limit_text (Some n) (Some m) (lit " LIMIT " ++ t ++ lit " OFFSET " ++ u).
(** Accepted arguments: int (bool is not one) and None. *)
Definition limit_arg (v : val) : Prop := v = VNone \/ exists n, v = VInt n.
(** limit(None, anything) ignores its second argument. *)
Definition limit_accepts (l o : val) : Prop := limit_arg l /\ (l = VNone \/ limit_arg o).
Definition limit_op (op : selop) : Prop := match op with SLimit _ _ | SOffset _ => True | _ => False end.

(** ** Options of SELECT *)
Definition option_name (k : selopt) : str :=
  match k with
  | OSqlCache => lit "SQL_CACHE" | OSqlNoCache => lit "SQL_NO_CACHE" | OAll => lit "ALL"
  | ODistinct => lit "DISTINCT" | ODistinctrow => lit "DISTINCTROW" | OSmall => lit "SQL_SMALL_RESULT"
  | OBig => lit "SQL_BIG_RESULT" | OBuffer => lit "SQL_BUFFER_RESULT" | OCalc => lit "SQL_CALC_FOUND_ROWS"
  | OStraight => lit "STRAIGHT_JOIN" | OHigh => lit "HIGH_PRIORITY"
  end.
(** In alphabetical order of the names. *)
Definition alphabetical : list selopt :=
  [OAll; ODistinct; ODistinctrow; OHigh; OBig; OBuffer; OSqlCache; OCalc; OSqlNoCache; OSmall; OStraight].
(** Options that exclude each other form a group. *)
Inductive optgroup := GCache | GDup | GSmall | GBig | GBuffer | GCalc | GStraight | GHigh.
Definition group_of (k : selopt) : optgroup :=
  match k with
  | OSqlCache | OSqlNoCache => GCache
  | OAll | ODistinct | ODistinctrow => GDup
  | OSmall => GSmall | OBig => GBig | OBuffer => GBuffer | OCalc => GCalc
  | OStraight => GStraight | OHigh => GHigh
  end.
Definition selopt_eqb (a b : selopt) : bool :=
  match a, b with
  | OSqlCache, OSqlCache | OSqlNoCache, OSqlNoCache | OAll, OAll | ODistinct, ODistinct
  | ODistinctrow, ODistinctrow | OSmall, OSmall | OBig, OBig | OBuffer, OBuffer | OCalc, OCalc
  | OStraight, OStraight | OHigh, OHigh => true
  | _, _ => false
  end.
Definition optgroup_eqb (a b : optgroup) : bool :=
  match a, b with
  | GCache, GCache | GDup, GDup | GSmall, GSmall | GBig, GBig | GBuffer, GBuffer | GCalc, GCalc
  | GStraight, GStraight | GHigh, GHigh => true
  | _, _ => false
  end.
(** Option [k] is on: the last call for its group was [k] with a true argument. *)
Definition option_on (ops : list selop) (k : selopt) : bool :=
  match last_such (fun op => match op with
                             | SOpt k' allow => if optgroup_eqb (group_of k') (group_of k)
                                                then Some (k', truthy allow) else None
                             | _ => None end) ops with
  | Some (k', true) => selopt_eqb k' k
  | _ => false
  end.
Definition option_op (op : selop) : Prop := match op with SOpt _ _ => True | _ => False end.
