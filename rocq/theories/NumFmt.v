(** Formatting of numbers and dates.
    Models the Python built-ins used by /repo/sqlpuzzle/_common/sqlvalue.py:93-106
    ('{:d}'.format, '{:.5f}'.format, isoformat) and by
    /repo/sqlpuzzle/_backends/{sql,postgresql}.py (binascii.hexlify). *)
From Coq Require Import Decimal DecimalN.
From Verif Require Import Base.
Open Scope N_scope.

(** Decimal digits of a natural number, most significant first. *)
Fixpoint uint_str (u : Decimal.uint) : str :=
  match u with
  | Decimal.Nil => []
  | D0 u => 48 :: uint_str u | D1 u => 49 :: uint_str u | D2 u => 50 :: uint_str u
  | D3 u => 51 :: uint_str u | D4 u => 52 :: uint_str u | D5 u => 53 :: uint_str u
  | D6 u => 54 :: uint_str u | D7 u => 55 :: uint_str u | D8 u => 56 :: uint_str u
  | D9 u => 57 :: uint_str u
  end.
Definition n_dec (n : N) : str := uint_str (N.to_uint n).

(** '{:d}'.format(z).  sqlvalue.py:93-94. *)
Definition z_dec (z : Z) : str :=
  match z with
  | Zneg p => 45 :: n_dec (Npos p)
  | _ => n_dec (Z.to_N z)
  end.

(** A fixed-width decimal field: the [w] least significant digits of [n]. *)
Fixpoint fixed (w : nat) (n : N) : str :=
  match w with
  | O => []
  | S w' => fixed w' (n / 10) ++ [48 + n mod 10]
  end.

(** A Python float or decimal.Decimal: finite rational (-1)^neg * num/den, or
    infinity, or NaN.  Every finite float and Decimal is such a rational; the
    model allows more rationals than Python has floats. *)
Inductive num :=
| NFin (neg : bool) (n : N) (d : positive)
| NInf (neg : bool)
| NNan.

(** n/d rounded to an integer, ties to even (IEEE / decimal default). *)
Definition round_half_even (n : N) (d : positive) : N :=
  let q := n / Npos d in
  let r := n mod (Npos d) in
  match N.compare (2 * r) (Npos d) with
  | Lt => q
  | Gt => q + 1
  | Eq => if N.even q then q else q + 1
  end.

(** '{:.5f}'.format(x).  sqlvalue.py:96-97.  [dec] tells float from Decimal,
    they print infinities and NaN differently. *)
Definition fmt5 (dec : bool) (x : num) : str :=
  match x with
  | NFin neg n d =>
      let k := round_half_even (n * 100000) d in
      (if neg then [45] else []) ++ n_dec (k / 100000) ++ [c_dot] ++ fixed 5 (k mod 100000)
  | NInf neg => (if neg then [45] else []) ++ (if dec then lit "Infinity" else lit "inf")
  | NNan => if dec then lit "NaN" else lit "nan"
  end.

(** Naive datetime.date / datetime.datetime (no time zone). *)
Record date := { d_year : N; d_month : N; d_day : N }.
Record time := { t_hour : N; t_min : N; t_sec : N; t_us : N }.

(** date.isoformat() / datetime.isoformat().  sqlvalue.py:102-106. *)
Definition date_iso (d : date) : str :=
  fixed 4 (d_year d) ++ [45] ++ fixed 2 (d_month d) ++ [45] ++ fixed 2 (d_day d).
Definition time_iso (t : time) : str :=
  fixed 2 (t_hour t) ++ [58] ++ fixed 2 (t_min t) ++ [58] ++ fixed 2 (t_sec t)
  ++ (if t_us t =? 0 then [] else [c_dot] ++ fixed 6 (t_us t)).
Definition datetime_iso (d : date) (t : time) : str := date_iso d ++ [84] ++ time_iso t.

(** binascii.hexlify(value).decode('ascii'). *)
Definition hexdigit (n : N) : chr := if n <? 10 then 48 + n else 87 + n.
Definition hexlify (b : list N) : str := flat_map (fun x => [hexdigit (x / 16); hexdigit (x mod 16)]) b.
