(** /repo/sqlpuzzle/_common/argsparser.py. *)
From Verif Require Import Base NumFmt Value Eq Render.
Open Scope N_scope.

(** What the builder functions need from their surroundings: the environment,
    Python's == and Python's str(). *)
Record world := MkWorld {
  w_env : env;
  w_eq : val -> val -> res bool;
  w_str : val -> res str }.
Definition pure_world (E : env) : world := MkWorld E (py_eq E) (text E).

(** ParserOptions: argsparser.py:46-54. *)
Record popts := MkPopts { p_min : nat; p_max : nat; p_dict : bool; p_list : bool }.

Definition kwargs := list (str * val).

(** Keys of a dictionary, as far as sorting is concerned: str and sqlpuzzle
    objects are ordered by text (object.py:29-34), numbers numerically. *)
Inductive dkey := DKStr (s : str) | DKInt (z : Z) | DKOther.
Definition dict_key (W : world) (k : val) : res dkey :=
  match k with
  | VStr s => Ok (DKStr s)
  | VInt z => Ok (DKInt z)
  | VBool b => Ok (DKInt (if b then 1 else 0)%Z)
  | _ => if is_sql k then do s <- w_str W k; Ok (DKStr s) else Ok DKOther
  end.
Section Sort.
  Context {A : Type} (lt : A -> A -> bool).
  Fixpoint oinsert (x : A) (l : list A) : list A :=
    match l with
    | [] => [x]
    | y :: r => if lt y x then y :: oinsert x r else x :: l
    end.
  Fixpoint osort (l : list A) : list A :=
    match l with [] => [] | x :: r => oinsert x (osort r) end.
End Sort.

Definition keyed := (dkey * (val * val))%type.
Definition dk_lt (a b : keyed) : bool :=
  match fst a, fst b with
  | DKStr x, DKStr y => sltb x y
  | DKInt x, DKInt y => (x <? y)%Z
  | _, _ => false
  end.
Definition dk_eq (a b : dkey) : bool :=
  match a, b with
  | DKStr x, DKStr y => seqb x y
  | DKInt x, DKInt y => (x =? y)%Z
  | _, _ => false
  end.
Fixpoint dk_dup (l : list dkey) : bool :=
  match l with [] => false | x :: r => existsb (dk_eq x) r || dk_dup r end.
Definition is_dkother (k : dkey) : bool := match k with DKOther => true | _ => false end.
Definition is_dkstr (k : dkey) : bool := match k with DKStr _ => true | _ => false end.
Definition is_dkint (k : dkey) : bool := match k with DKInt _ => true | _ => false end.

(** sorted(dictionary.items()): argsparser.py:122.  A one-element sort compares
    nothing.  Keys of other types, or two objects with the same text (where
    Python goes on to compare the values), are not decided. *)
Definition sort_items (W : world) (items : list (val * val)) : res (list (val * val)) :=
  match items with
  | [] | [_] => Ok items
  | _ =>
      do ks <- mapM (fun p => dict_key W (fst p)) items;
      if existsb is_dkother ks || dk_dup ks then Err EUnmodelled
      else if forallb is_dkstr ks || forallb is_dkint ks
           then Ok (map snd (osort dk_lt (combine ks items)))
           else Err ETypeError
  end.

(** sorted(kwds.items()): keyword names are distinct str. *)
Definition kw_lt (a b : str * val) : bool := sltb (fst a) (fst b).
Definition sort_kwds (kwds : kwargs) : list (val * val) :=
  map (fun p => (VStr (fst p), snd p)) (osort kw_lt kwds).

(** Parser._create_batch / _append_nones: argsparser.py:138-146. *)
Definition create_batch (o : popts) (values : list val) : res (list val) :=
  if Nat.ltb (p_max o) (List.length values) then Err EInvalidArgument
  else Ok (values ++ repeat VNone (p_max o - List.length values)).

(** Parser._parse_list: argsparser.py:125-132. *)
Definition parse_list_item (o : popts) (item : val) : res (list val) :=
  match item with
  | VSeq KList l | VSeq KTuple l => create_batch o l
  | _ => if Nat.eqb (p_min o) 1 then create_batch o [item] else Err EInvalidArgument
  end.
Definition parse_list (o : popts) (l : list val) : res (list (list val)) :=
  mapM (parse_list_item o) l.

(** Parser._parse_dictionary: argsparser.py:121-123. *)
Definition parse_items (o : popts) (items : list (val * val)) : res (list (list val)) :=
  mapM (fun p => create_batch o [fst p; snd p]) items.

(** Parser.parse: argsparser.py:102-119. *)
Definition parse_args (W : world) (o : popts) (args : list val) (kwds : kwargs) : res (list (list val)) :=
  let n := List.length args in
  do first <-
    match args with
    | [] => Ok []
    | a :: rest =>
        if Nat.ltb 1 (p_min o) && negb (is_list_or_tuple a)
           && Nat.leb (p_min o) n && Nat.leb n (p_max o)
        then do b <- create_batch o args; Ok [b]
        else match a, rest with
             | VSeq KList l, [] | VSeq KTuple l, [] =>
                 if p_list o then parse_list o l else parse_list o args
             | VDict _, [] => Ok []
             | _, _ => parse_list o args
             end
    end;
  do second <-
    match args, kwds with
    | [VDict items], _ =>
        if p_dict o then do s <- sort_items W items; parse_items o s else Err EInvalidArgument
    | _, [] => Ok []
    | _, _ => if p_dict o then parse_items o (sort_kwds kwds) else Err EInvalidArgument
    end;
  Ok (first ++ second).
