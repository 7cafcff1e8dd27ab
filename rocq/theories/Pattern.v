(** Python's re.search, as has() of /repo/sqlpuzzle/_queryparts/queryparts.py:20-25 uses it.
    re is CPython's, not the repository's: what is modelled is the language of sre_parse, and
    whether there is a match.  Which match is found (greedy or lazy) does not matter to has(). *)
From Verif Require Import Base Value.
Open Scope N_scope.

(** What stands for one character: the character, the dot, \w and \W. *)
Inductive xclass := KChar (c : chr) | KAny | KWord | KNotWord.
Definition in_class (E : env) (k : xclass) (c : chr) : bool :=
  match k with
  | KChar x => x =? c
  | KAny => negb (c =? c_nl)
  | KWord => wordc E c
  | KNotWord => negb (wordc E c)
  end.
Inductive rxt :=
| XEmpty | XOne (k : xclass) | XBol | XEol | XCat (a b : rxt) | XAlt (a b : rxt) | XStar (a : rxt).

(** ** Reading an expression, character by character: sre_parse._parse and _parse_sub *)

(** The last item of a branch: whether it may be repeated. *)
Inductive xkind := XPlain | XAnchor | XRepeated | XLazy.
(** An open group (or the whole expression): the branches before the last bar, the items of
    the current branch before its last one, and the last one. *)
Record xframe := { xf_alts : option rxt; xf_done : rxt; xf_last : option (rxt * xkind) }.
Definition x_new : xframe := {| xf_alts := None; xf_done := XEmpty; xf_last := None |}.
Definition x_seq (f : xframe) : rxt := match xf_last f with Some (x, _) => XCat (xf_done f) x | None => xf_done f end.
Definition x_total (f : xframe) : rxt := match xf_alts f with Some a => XAlt a (x_seq f) | None => x_seq f end.
Definition x_push (f : xframe) (x : rxt) (k : xkind) : xframe :=
  {| xf_alts := xf_alts f; xf_done := x_seq f; xf_last := Some (x, k) |}.
(** Within an item: after a backslash, or in brackets with these characters to come. *)
Inductive xmode := MText | MEscape | MSet (rest : str).
Record xstate := { x_mode : xmode; x_frame : xframe; x_stack : list xframe }.
Definition x_text (f : xframe) (stk : list xframe) : res xstate := Ok {| x_mode := MText; x_frame := f; x_stack := stk |}.

(** A backslash before a character that is no ASCII letter or digit takes its meaning away. *)
Definition rx_escapable (c : chr) : bool := (128 <=? c) || (c =? 95) || negb (ascii_word c).
(** The item with a star, plus or question mark after it. *)
Definition x_repeat (c : chr) (x : rxt) : rxt :=
  if c =? 42 then XStar x else if c =? 43 then XCat x (XStar x) else XAlt XEmpty x.
(** [EException] is re.error ("nothing to repeat", "multiple repeat", "unbalanced parenthesis",
    "missing )"), a subclass of Exception.  Simplification: what is not decided, with
    [EUnmodelled]: (?...), classes in brackets other than the one has() itself uses, {m,n},
    backslashes before ASCII letters (but w and W) and digits, possessive repetitions. *)
Definition x_repeated (f : xframe) (stk : list xframe) (c : chr) : res xstate :=
  match xf_last f with
  | None => if (c =? 63) && negb (is_nilb stk) && match xf_alts f with None => true | Some _ => false end then Err EUnmodelled else Err EException
  | Some (_, XAnchor) | Some (_, XLazy) => Err EException
  | Some (x, XPlain) => x_text {| xf_alts := xf_alts f; xf_done := xf_done f; xf_last := Some (x_repeat c x, XRepeated) |} stk
  | Some (x, XRepeated) =>
      if c =? 63 then x_text {| xf_alts := xf_alts f; xf_done := xf_done f; xf_last := Some (x, XLazy) |} stk
      else if c =? 43 then Err EUnmodelled else Err EException
  end.
Definition x_step (s : xstate) (c : chr) : res xstate :=
  let f := x_frame s in let stk := x_stack s in
  match x_mode s with
  | MEscape =>
      if rx_escapable c then x_text (x_push f (XOne (KChar c)) XPlain) stk
      else if c =? 119 then x_text (x_push f (XOne KWord) XPlain) stk
      else if c =? 87 then x_text (x_push f (XOne KNotWord) XPlain) stk
      else Err EUnmodelled
  | MSet [] => Err EUnmodelled
  | MSet (x :: l) =>
      if c =? x then match l with
                     | [] => x_text (x_push f (XOne KNotWord) XPlain) stk
                     | _ => Ok {| x_mode := MSet l; x_frame := f; x_stack := stk |}
                     end
      else Err EUnmodelled
  | MText =>
      if c =? 92 then Ok {| x_mode := MEscape; x_frame := f; x_stack := stk |}
      else if c =? 91 then Ok {| x_mode := MSet (lit "^\w]"); x_frame := f; x_stack := stk |}
      else if c =? 46 then x_text (x_push f (XOne KAny) XPlain) stk
      else if c =? 94 then x_text (x_push f XBol XAnchor) stk
      else if c =? 36 then x_text (x_push f XEol XAnchor) stk
      else if c =? 40 then x_text x_new (f :: stk)
      else if c =? 41 then match stk with [] => Err EException | g :: stk' => x_text (x_push g (x_total f) XPlain) stk' end
      else if c =? 124 then x_text {| xf_alts := Some (x_total f); xf_done := XEmpty; xf_last := None |} stk
      else if (c =? 42) || (c =? 43) || (c =? 63) then x_repeated f stk c
      else if c =? 123 then Err EUnmodelled
      else x_text (x_push f (XOne (KChar c)) XPlain) stk
  end.
Fixpoint x_run (s : xstate) (w : str) : res xstate :=
  match w with [] => Ok s | c :: r => do s' <- x_step s c; x_run s' r end.
Definition x_parse (w : str) : res rxt :=
  do s <- x_run {| x_mode := MText; x_frame := x_new; x_stack := [] |} w;
  match x_mode s, x_stack s with
  | MText, [] => Ok (x_total (x_frame s))
  | MText, _ => Err EException
  | _, _ => Err EUnmodelled
  end.

(** ** Matching *)

(** The places where a match that begins here can end.  A place: whether it is the start of
    the text, and what is left of the text.  The dollar sign also matches before a newline at
    the end.  A round of a repetition that takes nothing is not repeated. *)
Fixpoint x_ends (E : env) (x : rxt) (st : bool) (s : str) {struct x} : list (bool * str) :=
  match x with
  | XEmpty => [(st, s)]
  | XOne k => match s with c :: r => if in_class E k c then [(false, r)] else [] | [] => [] end
  | XBol => if st then [(st, s)] else []
  | XEol => match s with [] => [(st, s)] | [c] => if c =? c_nl then [(st, s)] else [] | _ => [] end
  | XCat a b => flat_map (fun p => x_ends E b (fst p) (snd p)) (x_ends E a st s)
  | XAlt a b => x_ends E a st s ++ x_ends E b st s
  | XStar a =>
      (fix rounds (n : nat) (st : bool) (s : str) {struct n} : list (bool * str) :=
         (st, s) :: match n with
                    | O => []
                    | S n' => flat_map (fun p => if Nat.ltb (List.length (snd p)) (List.length s) then rounds n' (fst p) (snd p) else []) (x_ends E a st s)
                    end) (List.length s) st s
  end.
(** re.search: a match that begins anywhere. *)
Fixpoint x_search (E : env) (x : rxt) (st : bool) (s : str) : bool :=
  negb (is_nilb (x_ends E x st s)) || match s with [] => false | _ :: r => x_search E x false r end.
