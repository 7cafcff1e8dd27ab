(** Regular expressions, as far as the backends use them: membership by
    derivatives.  Python's [re.match(r'^...$')] on a stripped text is taken to be
    language membership (no lookaround, no backreferences occur). *)
From Verif Require Import Base.
Open Scope N_scope.

Inductive regex :=
| RxNone                              (* matches nothing *)
| RxEps                               (* empty text *)
| RxChr (p : chr -> bool)             (* one character *)
| RxCat (a b : regex)
| RxAlt (a b : regex)
| RxStar (a : regex).

Fixpoint nullable (x : regex) : bool :=
  match x with
  | RxNone => false | RxEps => true | RxChr _ => false
  | RxCat a b => nullable a && nullable b
  | RxAlt a b => nullable a || nullable b
  | RxStar _ => true
  end.

Definition scat (a b : regex) : regex :=
  match a, b with
  | RxNone, _ => RxNone | _, RxNone => RxNone
  | RxEps, b => b
  | a, RxEps => a
  | a, b => RxCat a b
  end.
Definition salt (a b : regex) : regex :=
  match a, b with
  | RxNone, b => b | a, RxNone => a
  | a, b => RxAlt a b
  end.

Fixpoint deriv (c : chr) (x : regex) : regex :=
  match x with
  | RxNone | RxEps => RxNone
  | RxChr p => if p c then RxEps else RxNone
  | RxCat a b => if nullable a then salt (scat (deriv c a) b) (deriv c b) else scat (deriv c a) b
  | RxAlt a b => salt (deriv c a) (deriv c b)
  | RxStar a => scat (deriv c a) (RxStar a)
  end.

Fixpoint rx_match (x : regex) (s : str) : bool :=
  match s with [] => nullable x | c :: r => rx_match (deriv c x) r end.

Definition rx_char (c : chr) : regex := RxChr (fun x => x =? c).          (* c *)
Definition rx_not (cs : list chr) : regex := RxChr (fun x => negb (existsb (fun c => x =? c) cs)).
Definition rx_plus (a : regex) : regex := RxCat a (RxStar a).              (* a+ *)
Definition rx_opt2 (a : regex) : regex :=                                  (* a{0,2} *)
  RxAlt RxEps (RxAlt a (RxCat a a)).
