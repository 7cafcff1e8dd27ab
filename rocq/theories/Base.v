(** Text, exceptions and list helpers used by the whole model.

    Python facts modelled here (language, not repository code):
    - [str] is a sequence of Unicode code points; we use [list N].
    - [str.strip], [str.replace], [str.join], comparison of strings. *)
From Coq Require Export List NArith ZArith Bool Ascii String.
Export ListNotations.
Open Scope list_scope.
Open Scope N_scope.

Definition chr := N.
Definition str := list chr.

(** ASCII literal -> text. *)
Fixpoint lit (s : string) : str :=
  match s with
  | EmptyString => []
  | String a r => N_of_ascii a :: lit r
  end.

Definition c_dq : chr := 34.        (* double quote *)
Definition c_sq : chr := 39.        (* single quote *)
Definition c_bt : chr := 96.        (* backtick *)
Definition c_bs : chr := 92.        (* backslash *)
Definition c_nl : chr := 10.        (* newline *)
Definition c_dot : chr := 46.       (* dot *)
Definition c_star : chr := 42.      (* star *)
Definition c_sp : chr := 32.
Definition c_lp : chr := 40.
Definition c_rp : chr := 41.
Definition c_n : chr := 110.        (* letter n *)

(** Exceptions. /repo/sqlpuzzle/exceptions.py:1-84 plus the built-in ones the
    code lets escape.  [EUnmodelled] marks situations the model does not decide
    (see DESIGN.md); no theorem claims anything about them. *)
Inductive exn :=
| EInvalidArgument    (* InvalidArgumentException   exceptions.py:46-66 *)
| EInvalidQuery       (* InvalidQueryException      exceptions.py:68-84 *)
| ESqlPuzzle          (* SqlPuzzleException         exceptions.py:1-12  *)
| EConfirmDelete      (* ConfirmDeleteAllException  exceptions.py:36-43 *)
| EConfirmUpdate      (* ConfirmUpdateAllException  exceptions.py:26-33 *)
| ETypeError | EAttributeError
| EException          (* a bare [raise Exception(...)] *)
| EUnmodelled.

(** A Python call: a result or a raised exception. *)
Inductive res (A : Type) : Type := Ok (a : A) | Err (e : exn).
Arguments Ok {A} a.
Arguments Err {A} e.

Definition bind {A B} (x : res A) (f : A -> res B) : res B :=
  match x with Ok a => f a | Err e => Err e end.
Notation "'do' x <- e ; k" := (bind e (fun x => k))
  (at level 200, x pattern, e at level 100, k at level 200, right associativity).
Definition rmap {A B} (f : A -> B) (x : res A) : res B :=
  match x with Ok a => Ok (f a) | Err e => Err e end.
Definition is_ok {A} (x : res A) : bool := match x with Ok _ => true | Err _ => false end.

(** Python's short-circuiting [and] / [or] on calls that may raise. *)
Definition rand (x : res bool) (y : res bool) : res bool :=
  match x with Ok true => y | Ok false => Ok false | Err e => Err e end.
Definition ror (x : res bool) (y : res bool) : res bool :=
  match x with Ok true => Ok true | Ok false => y | Err e => Err e end.

(** Left-to-right evaluation of a comprehension. *)
Section MapM.
  Context {A B : Type} (f : A -> res B).
  Fixpoint mapM (l : list A) : res (list B) :=
    match l with
    | [] => Ok []
    | x :: r => match f x with
                | Ok y => match mapM r with Ok ys => Ok (y :: ys) | Err e => Err e end
                | Err e => Err e
                end
    end.
End MapM.

(** [all(f(x, y) for x, y in zip(l1, l2))], short-circuiting. *)
Section All2.
  Context {A B : Type} (f : A -> B -> res bool).
  Fixpoint all2 (l1 : list A) (l2 : list B) : res bool :=
    match l1, l2 with
    | x :: r1, y :: r2 => rand (f x y) (all2 r1 r2)
    | _, _ => Ok true
    end.
End All2.

Section AnyM.
  Context {A : Type} (f : A -> res bool).
  Fixpoint anyM (l : list A) : res bool :=
    match l with [] => Ok false | x :: r => ror (f x) (anyM r) end.
  Fixpoint allM (l : list A) : res bool :=
    match l with [] => Ok true | x :: r => rand (f x) (allM r) end.
End AnyM.

(** Equality of texts. *)
Fixpoint seqb (a b : str) : bool :=
  match a, b with
  | [], [] => true
  | x :: r, y :: s => (x =? y) && seqb r s
  | _, _ => false
  end.

(** Python [<] on str: lexicographic by code point. *)
Fixpoint sltb (a b : str) : bool :=
  match a, b with
  | [], _ :: _ => true
  | _, [] => false
  | x :: r, y :: s => if x <? y then true else if x =? y then sltb r s else false
  end.

(** [sep.join(parts)]. *)
Fixpoint sjoin (sep : str) (l : list str) : str :=
  match l with
  | [] => []
  | [x] => x
  | x :: r => x ++ sep ++ sjoin sep r
  end.

(** [s.replace(c, new)] for a one-character [c]. *)
Definition replace1 (c : chr) (new : str) (s : str) : str :=
  flat_map (fun x => if x =? c then new else [x]) s.

(** The whitespace removed by [str.strip()] (CPython's Py_UNICODE_ISSPACE). *)
Definition is_space (c : chr) : bool :=
  ((9 <=? c) && (c <=? 13)) || ((28 <=? c) && (c <=? 32)) || (c =? 133) || (c =? 160)
  || (c =? 5760) || ((8192 <=? c) && (c <=? 8202)) || (c =? 8232) || (c =? 8233)
  || (c =? 8239) || (c =? 8287) || (c =? 12288).

Fixpoint lstrip (s : str) : str :=
  match s with
  | [] => []
  | c :: r => if is_space c then lstrip r else s
  end.
Definition rstrip (s : str) : str := rev (lstrip (rev s)).
Definition strip (s : str) : str := rstrip (lstrip s).

(** ASCII word characters of a Python regex [\w]. *)
Definition ascii_word (c : chr) : bool :=
  ((48 <=? c) && (c <=? 57)) || ((65 <=? c) && (c <=? 90)) || ((97 <=? c) && (c <=? 122)) || (c =? 95).

Definition is_nilb {A} (l : list A) : bool := match l with [] => true | _ => false end.

Definition ascii_upper (c : chr) : chr := if (97 <=? c) && (c <=? 122) then c - 32 else c.
Definition ascii_lower (c : chr) : chr := if (65 <=? c) && (c <=? 90) then c + 32 else c.
