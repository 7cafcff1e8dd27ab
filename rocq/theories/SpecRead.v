(** Specification: readers of numerals, hexadecimal text and ISO dates.
    Independent of the model. *)
From Coq Require Import QArith.
From Verif Require Import Base NumFmt.
Open Scope N_scope.

(** ** Decimal numerals *)
Definition digit (c : chr) : option N := if (48 <=? c) && (c <=? 57) then Some (c - 48) else None.
(** The number a non-empty digit string denotes, read from the left. *)
Fixpoint read_digits (acc : N) (s : str) : option N :=
  match s with
  | [] => Some acc
  | c :: r => match digit c with Some d => read_digits (10 * acc + d) r | None => None end
  end.
Definition read_nat (s : str) : option N := match s with [] => None | _ => read_digits 0 s end.
Definition read_int (s : str) : option Z :=
  match s with
  | 45 :: r => match read_nat r with Some n => Some (- Z.of_N n)%Z | None => None end
  | _ => match read_nat s with Some n => Some (Z.of_N n) | None => None end
  end.
(** No superfluous leading zero, no minus zero. *)
Definition canonical_int (s : str) : Prop :=
  s = [48] \/ (exists c r, s = c :: r /\ 49 <= c <= 57) \/ (exists c r, s = 45 :: c :: r /\ 49 <= c <= 57).

(** Text up to and after the first dot. *)
Fixpoint split_dot (s : str) : option (str * str) :=
  match s with
  | [] => None
  | c :: r => if c =? 46 then Some ([], r)
              else match split_dot r with Some (a, b) => Some (c :: a, b) | None => None end
  end.
Fixpoint pow10 (n : nat) : positive := match n with O => 1 | S k => 10 * pow10 k end.
(** [-]digits.digits as a rational number. *)
Definition read_unsigned_decimal (s : str) : option Q :=
  match split_dot s with
  | Some (a, b) =>
      match read_nat a, read_nat b with
      | Some x, Some y =>
          Some (Z.of_N (x * Npos (pow10 (List.length b)) + y) # pow10 (List.length b))%Q
      | _, _ => None
      end
  | None => None
  end.
Definition read_decimal (s : str) : option Q :=
  match s with
  | 45 :: r => option_map Qopp (read_unsigned_decimal r)
  | _ => read_unsigned_decimal s
  end.
(** The number of digits after the dot. *)
Definition decimals (s : str) : option nat :=
  match split_dot s with Some (_, b) => Some (List.length b) | None => None end.
(** The rational value of a finite float or Decimal. *)
Definition num_value (x : num) : option Q :=
  match x with
  | NFin neg n d => Some (if neg then - (Z.of_N n # d) else (Z.of_N n # d))%Q
  | _ => None
  end.

(** ** Hexadecimal *)
Definition hex (c : chr) : option N :=
  if (48 <=? c) && (c <=? 57) then Some (c - 48)
  else if (97 <=? c) && (c <=? 102) then Some (c - 87)
  else if (65 <=? c) && (c <=? 70) then Some (c - 55)
  else None.
Fixpoint unhex (s : str) : option (list N) :=
  match s with
  | [] => Some []
  | a :: b :: r => match hex a, hex b, unhex r with
                   | Some x, Some y, Some l => Some (16 * x + y :: l)
                   | _, _, _ => None
                   end
  | _ => None
  end.

(** ** ISO 8601: YYYY-MM-DD and YYYY-MM-DDThh:mm:ss[.ffffff] *)
Fixpoint take (n : nat) (s : str) : option (str * str) :=
  match n, s with
  | O, _ => Some ([], s)
  | S k, c :: r => match take k r with Some (a, b) => Some (c :: a, b) | None => None end
  | _, [] => None
  end.
(** A numeral of exactly [w] digits. *)
Definition field (w : nat) (s : str) : option (N * str) :=
  match take w s with
  | Some (a, b) => match read_nat a with Some n => Some (n, b) | None => None end
  | None => None
  end.
Definition sep (c : chr) (s : str) : option str :=
  match s with x :: r => if x =? c then Some r else None | [] => None end.
Notation "'let?' x := e 'in' k" := (match e with Some x => k | None => None end)
  (at level 200, x pattern, right associativity).
Definition read_date (s : str) : option (date * str) :=
  let? (y, s) := field 4 s in
  let? s := sep 45 s in
  let? (m, s) := field 2 s in
  let? s := sep 45 s in
  let? (d, s) := field 2 s in
  Some ({| d_year := y; d_month := m; d_day := d |}, s).
Definition read_time (s : str) : option (time * str) :=
  let? (h, s) := field 2 s in
  let? s := sep 58 s in
  let? (m, s) := field 2 s in
  let? s := sep 58 s in
  let? (x, s) := field 2 s in
  match sep 46 s with
  | Some s' => let? (us, s'') := field 6 s' in
               Some ({| t_hour := h; t_min := m; t_sec := x; t_us := us |}, s'')
  | None => Some ({| t_hour := h; t_min := m; t_sec := x; t_us := 0 |}, s)
  end.
Definition read_iso_date (s : str) : option date :=
  match read_date s with Some (d, []) => Some d | _ => None end.
Definition read_iso_datetime (s : str) : option (date * time) :=
  let? (d, s) := read_date s in
  let? s := sep 84 s in
  match read_time s with Some (t, []) => Some (d, t) | _ => None end.

(** The ranges of datetime.date and datetime.time. *)
Definition valid_date (d : date) : Prop :=
  1 <= d_year d <= 9999 /\ 1 <= d_month d <= 12 /\ 1 <= d_day d <= 31.
Definition valid_time (t : time) : Prop :=
  t_hour t <= 23 /\ t_min t <= 59 /\ t_sec t <= 59 /\ t_us t <= 999999.
