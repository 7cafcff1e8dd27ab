(** Specification: names, paths of names, and which strings look like a reference.
    Independent of the model. *)
From Verif Require Import Base Value SpecLex.
Open Scope N_scope.

(** The identifier quote of each configured backend, from the documentation. *)
Definition quote_of (b : backend) : chr := match b with BMySql => 96 | _ => 34 end.
(** The server that reads the text. *)
Definition dialect_of (b : backend) : dialect :=
  match b with BMySql => mysql_sql | BPostgres => postgres_sql | _ => standard_sql end.

(** Python's whitespace (str.isspace on one character). *)
Definition whitespace (c : chr) : Prop :=
  In c [9; 10; 11; 12; 13; 28; 29; 30; 31; 32; 133; 160; 5760; 8192; 8193; 8194; 8195; 8196; 8197;
        8198; 8199; 8200; 8201; 8202; 8232; 8233; 8239; 8287; 12288].
(** [m] is [s] without surrounding whitespace. *)
Definition stripped (s m : str) : Prop :=
  exists l r, s = l ++ m ++ r /\ Forall whitespace l /\ Forall whitespace r
    /\ (forall c x, m = c :: x -> ~ whitespace c) /\ (forall c x, m = x ++ [c] -> ~ whitespace c).

(** Inside of a quoted identifier: characters other than the quote, or doubled quotes. *)
Inductive quoted_inside (q : chr) : str -> Prop :=
| qi_none : quoted_inside q []
| qi_char : forall c s, c <> q -> quoted_inside q s -> quoted_inside q (c :: s)
| qi_double : forall s, quoted_inside q s -> quoted_inside q (q :: q :: s).
Inductive quoted_ident (q : chr) : str -> Prop :=
| quoted_ident_intro : forall s, s <> [] -> quoted_inside q s -> quoted_ident q (q :: s ++ [q]).
Definition bare_ident (q : chr) (s : str) : Prop :=
  s <> [] /\ Forall (fun c => c <> q /\ c <> 46 /\ c <> 32) s.
Definition ident (q : chr) (s : str) : Prop := quoted_ident q s \/ bare_ident q s.
(** One quoted identifier, then at most two identifiers, separated by dots. *)
Inductive reference_path (q : chr) : str -> Prop :=
| path1 : forall a, quoted_ident q a -> reference_path q a
| path2 : forall a b, quoted_ident q a -> ident q b -> reference_path q (a ++ [46] ++ b)
| path3 : forall a b c, quoted_ident q a -> ident q b -> ident q c ->
    reference_path q (a ++ [46] ++ b ++ [46] ++ c).
Definition reference_shaped (q : chr) (s : str) : Prop :=
  exists m, stripped s m /\ reference_path q m.

(** Non-empty segments of a name between dots. *)
Fixpoint segments (cur : str) (s : str) : list str :=
  let flush := match cur with [] => [] | _ => [cur] end in
  match s with
  | [] => flush
  | c :: r => if c =? 46 then flush ++ segments [] r else segments (cur ++ [c]) r
  end.
Definition name_segments (s : str) : list str := segments [] s.

(** The tokens of a dotted path: each segment one quoted identifier, * staying code. *)
Definition segment_token (s : str) : token :=
  match s with [42] => TCode 42 | _ => TId s end.
Fixpoint path_tokens (l : list str) : list token :=
  match l with
  | [] => []
  | [x] => [segment_token x]
  | x :: r => segment_token x :: TCode 46 :: path_tokens r
  end.

(** Two quote characters in a row. *)
Definition doubled (q : chr) (s : str) : Prop := exists a b, s = a ++ q :: q :: b.
