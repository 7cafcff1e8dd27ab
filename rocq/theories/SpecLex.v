(** Specification: how a SQL server splits text into tokens.

    This file does not refer to the model of the library.  It is a conservative
    tokenizer: quoted strings, quoted identifiers and comments are recognised,
    every other character is a code character of its own. *)
From Verif Require Import Base.
Open Scope N_scope.

Inductive token :=
| TStr (s : str)        (* string literal, with the text it denotes *)
| TId (s : str)         (* quoted identifier, with the name it denotes *)
| TCode (c : chr)       (* any other character: keyword, number, operator, space *)
| TComment              (* a comment starts here *)
| TOpen.                (* end of text inside a literal, identifier or comment *)

(** What differs between servers. *)
Record dialect := MkDialect {
  d_ident : chr;        (* quote character of identifiers *)
  d_backslash : bool;   (* does a backslash escape inside string literals? *)
  d_dqstring : bool;    (* does a double quote delimit a string? *)
  d_eprefix : bool }.   (* is E'...' a string with backslash escapes? *)
Definition standard_sql := MkDialect 34 false false false.
Definition mysql_sql := MkDialect 96 true true false.
Definition postgres_sql := MkDialect 34 false false true.

(** MySQL 9.1.1 "String Literals", table of special character escapes; every other
    escaped character stands for itself. *)
Definition unescape (c : chr) : str :=
  if c =? 48 then [0]                     (* \0 *)
  else if c =? 98 then [8]                (* \b *)
  else if c =? 110 then [10]              (* \n *)
  else if c =? 114 then [13]              (* \r *)
  else if c =? 116 then [9]               (* \t *)
  else if c =? 90 then [26]               (* \Z *)
  else if c =? 37 then [92; 37]           (* \% *)
  else if c =? 95 then [92; 95]           (* \_ *)
  else [c].

Inductive lexstate :=
| LCode
| LStr (q : chr) (bs : bool) (read : str)   (* inside a string quoted by q *)
| LId (read : str)                          (* inside a quoted identifier *)
| LLine | LBlock.                           (* inside a comment *)

Definition starts_with (c : chr) (s : str) : bool :=
  match s with x :: _ => x =? c | [] => false end.

Fixpoint lex (d : dialect) (st : lexstate) (s : str) {struct s} : list token :=
  match s with
  | [] => match st with LCode | LLine => [] | _ => [TOpen] end
  | c :: r =>
      match st with
      | LCode =>
          if c =? 39 then lex d (LStr 39 (d_backslash d) []) r
          else if d_dqstring d && (c =? 34) then lex d (LStr 34 (d_backslash d) []) r
          else if c =? d_ident d then lex d (LId []) r
          else if d_eprefix d && ((c =? 69) || (c =? 101)) && starts_with 39 r
               then match r with
                    | _ :: r' => TCode c :: lex d (LStr 39 true []) r'
                    | [] => []
                    end
          else if (c =? 45) && starts_with 45 r then TComment :: lex d LLine r      (* -- *)
          else if c =? 35 then TComment :: lex d LLine r                            (* #  *)
          else if (c =? 47) && starts_with 42 r then TComment :: lex d LBlock r     (* slash star *)
          else TCode c :: lex d LCode r
      | LStr q bs read =>
          if c =? q then
            match r with
            | c' :: r' => if c' =? q then lex d (LStr q bs (read ++ [q])) r'
                          else TStr read :: lex d LCode r
            | [] => TStr read :: lex d LCode r
            end
          else if bs && (c =? 92) then
            match r with
            | e :: r' => lex d (LStr q bs (read ++ unescape e)) r'
            | [] => [TOpen]
            end
          else lex d (LStr q bs (read ++ [c])) r
      | LId read =>
          if c =? d_ident d then
            match r with
            | c' :: r' => if c' =? d_ident d then lex d (LId (read ++ [c])) r'
                          else TId read :: lex d LCode r
            | [] => TId read :: lex d LCode r
            end
          else lex d (LId (read ++ [c])) r
      | LLine => if c =? 10 then lex d LCode r else lex d LLine r
      | LBlock => if (c =? 42) && starts_with 47 r
                  then match r with _ :: r' => lex d LCode r' | [] => [] end
                  else lex d LBlock r
      end
  end.
Definition tokens (d : dialect) (s : str) : list token := lex d LCode s.

(** Text that cannot prolong a quoted token ending just before it. *)
Definition no_quote_first (s : str) : Prop := forall c r, s = c :: r -> c <> 39 /\ c <> 34 /\ c <> 96.

Example lex_ex1 : tokens mysql_sql (lit "a='b''c\'d' -- '") =
  [TCode 97; TCode 61; TStr (lit "b'c'd"); TCode 32; TComment].
Proof. reflexivity. Qed.
Example lex_ex2 : tokens postgres_sql (lit "E'\'' || '\' ""x""""y""") =
  [TCode 69; TStr (lit "'"); TCode 32; TCode 124; TCode 124; TCode 32; TStr (lit "\"); TCode 32; TId (lit "x""y")].
Proof. reflexivity. Qed.
