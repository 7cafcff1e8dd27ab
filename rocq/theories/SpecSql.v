(** Specification: a small SQL server.  It reads the text of a statement (tokens of
    SpecLex.v, grouped to words and symbols, then parsed) and executes it on tables.
    This file does not refer to the model of the library.  The reader is stricter than
    a real server: keywords in capitals, only the constructs listed here. *)
From Verif Require Import Base SpecLex SpecRead SpecLogic.
Open Scope N_scope.

(** ** Words and symbols *)
Inductive lexeme := XStr (s : str) | XId (s : str) | XWord (w : str) | XSym (c : chr) | XBad.
Definition word_char (c : chr) : bool :=
  ((48 <=? c) && (c <=? 57)) || ((65 <=? c) && (c <=? 90)) || ((97 <=? c) && (c <=? 122)) || (c =? 95) || (128 <=? c).
Definition flush (cur : str) : list lexeme := match cur with [] => [] | _ => [XWord cur] end.
Definition symbol (c : chr) : list lexeme := if (c =? 32) || (c =? 9) || (c =? 10) || (c =? 13) then [] else [XSym c].
Fixpoint group (cur : str) (ts : list token) : list lexeme :=
  match ts with
  | [] => flush cur
  | TCode c :: r => if word_char c then group (cur ++ [c]) r else flush cur ++ symbol c ++ group [] r
  | TStr s :: r => flush cur ++ XStr s :: group [] r
  | TId s :: r => flush cur ++ XId s :: group [] r
  | _ :: r => flush cur ++ XBad :: group [] r
  end.
Definition lexemes (d : dialect) (s : str) : list lexeme := group [] (tokens d s).

(** ** What a statement can say *)
Definition path := list str.
(** LNumber: a decimal number, -whole.frac or whole.frac, as written. *)
Inductive literal := LNull | LBool (b : bool) | LInt (z : Z) | LText (s : str) | LBytes (l : list N) | LNumber (neg : bool) (whole frac : str).
(** A column, or a function of columns. *)
Inductive expr := EColumn (p : path) | ECall (f : str) (distinct : bool) (args : list path).
Inductive operand := OExpr (e : expr) | OLiteral (l : literal).
Inductive compop := CEq | CNe | CLt | CLe | CGt | CGe | CLike | CNotLike | CRegexp | CIs | CIsNot.
Inductive sexp :=
| SCompare (p : expr) (o : compop) (x : operand)
| SIn (p : expr) (negated : bool) (l : list literal)
| SNot (e : sexp) | SAnd (a b : sexp) | SOr (a b : sexp).
Inductive joinkind := InnerJoin | LeftJoin | RightJoin | FullJoin.
Record joined := MkJoined { jn_kind : joinkind; jn_table : path; jn_alias : option path; jn_on : option sexp }.
Record source := MkSource { sc_table : path; sc_alias : option path; sc_joins : list joined }.
Inductive statement :=
| StSelect (options : list str) (columns : list (expr * option path)) (from : list source) (where_ : option sexp)
    (group_by : list (expr * bool)) (having : option sexp) (order_by : list (expr * bool))
    (limit offset : option Z) (for_update : bool)
| StDelete (ignore : bool) (targets : list source) (from : list source) (where_ : option sexp)
| StUpdate (ignore : bool) (tables : list source) (sets : list (path * literal)) (where_ : option sexp)
| StInsert (replace ignore : bool) (table : path) (columns : list path) (rows : list (list literal)).

(** ** The parser.  A parser returns what it read and the rest. *)
Definition parser (A : Type) := list lexeme -> option (A * list lexeme).
Definition keyword (w : str) (ls : list lexeme) : option (list lexeme) :=
  match ls with XWord x :: r => if seqb x w then Some r else None | _ => None end.
Definition sym (c : chr) (ls : list lexeme) : option (list lexeme) :=
  match ls with XSym x :: r => if x =? c then Some r else None | _ => None end.
Notation "'let?' x := e 'in' k" := (match e with Some x => k | None => None end)
  (at level 200, x pattern, right associativity).

(** name.name.name, where the last may be a star *)
Definition p_segment (ls : list lexeme) : option (str * list lexeme) :=
  match ls with
  | XId s :: r => Some (s, r)
  | XSym c :: r => if c =? 42 then Some ([42], r) else None
  | _ => None
  end.
Fixpoint p_path (n : nat) (ls : list lexeme) : option (path * list lexeme) :=
  match n with
  | O => None
  | S n =>
      let? (s, r) := p_segment ls in
      match sym 46 r with
      | Some r' => let? (p, r'') := p_path n r' in Some (s :: p, r'')
      | None => Some ([s], r)
      end
  end.
Definition p_column : parser path := fun ls => p_path (List.length ls) ls.
Definition all_digits (w : str) : bool := forallb (fun c => (48 <=? c) && (c <=? 57)) w.
(** digits.digits *)
Definition p_decimal (neg : bool) : parser literal := fun ls =>
  match ls with
  | XWord a :: XSym c :: XWord f :: r =>
      if (c =? 46) && all_digits a && all_digits f then Some (LNumber neg a f, r) else None
  | _ => None
  end.
Definition p_number : parser literal := fun ls =>
  match sym 45 ls with
  | Some r => p_decimal true r
  | None => p_decimal false ls
  end.
(** NULL, a boolean, an integer, text or bytes *)
Definition p_atom : parser literal := fun ls =>
  match ls with
  | XStr s :: r => Some (LText s, r)
  | XSym c :: XWord w :: r => if c =? 45 then let? n := read_nat w in Some (LInt (- Z.of_N n), r) else None
  | XWord w :: r =>
      if seqb w (lit "NULL") then Some (LNull, r)
      else if seqb w (lit "true") then Some (LBool true, r)
      else if seqb w (lit "false") then Some (LBool false, r)
      else if seqb w (lit "x") then    (* x'00ff' *)
        match r with XStr h :: r' => let? l := unhex h in Some (LBytes l, r') | _ => None end
      else if seqb w (lit "E") then    (* E'\\x00ff' *)
        match r with
        | XStr h :: r' => let? h := sep 92 h in let? h := sep 120 h in let? l := unhex h in Some (LBytes l, r')
        | _ => None
        end
      else let? n := read_nat w in Some (LInt (Z.of_N n), r)
  | _ => None
  end.
Definition p_literal : parser literal := fun ls =>
  match p_number ls with Some x => Some x | None => p_atom ls end.
Definition p_operator : parser compop := fun ls =>
  match ls with
  | XSym c :: r =>
      if c =? 61 then Some (CEq, r)
      else if c =? 33 then let? r' := sym 61 r in Some (CNe, r')
      else if c =? 60 then match sym 61 r with Some r' => Some (CLe, r') | None => Some (CLt, r) end
      else if c =? 62 then match sym 61 r with Some r' => Some (CGe, r') | None => Some (CGt, r) end
      else None
  | XWord w :: r =>
      if seqb w (lit "LIKE") then Some (CLike, r)
      else if seqb w (lit "NOT") then let? r' := keyword (lit "LIKE") r in Some (CNotLike, r')
      else if seqb w (lit "REGEXP") then Some (CRegexp, r)
      else if seqb w (lit "IS") then
        match keyword (lit "NOT") r with Some r' => Some (CIsNot, r') | None => Some (CIs, r) end
      else None
  | _ => None
  end.
(** x, x, x *)
Section Separated.
  Context {A : Type} (p : parser A).
  Fixpoint p_list_n (n : nat) (ls : list lexeme) : option (list A * list lexeme) :=
    match n with
    | O => None
    | S n =>
        let? (x, r) := p ls in
        match sym 44 r with
        | Some r' => let? (xs, r'') := p_list_n n r' in Some (x :: xs, r'')
        | None => Some ([x], r)
        end
    end.
  Definition p_list : parser (list A) := fun ls => p_list_n (List.length ls) ls.
  (** ( x, x, x ) *)
  Definition p_bracketed : parser (list A) := fun ls =>
    let? r := sym 40 ls in let? (xs, r') := p_list r in let? r'' := sym 41 r' in Some (xs, r'').
End Separated.
(** column | FUNCTION([DISTINCT] column, column) *)
Definition p_expr : parser expr := fun ls =>
  match ls with
  | XWord f :: r =>
      let? r := sym 40 r in
      let (d, r) := match keyword (lit "DISTINCT") r with Some r' => (true, r') | None => (false, r) end in
      let? (ps, r) := p_list p_column r in
      let? r := sym 41 r in Some (ECall f d ps, r)
  | _ => let? (p, r) := p_column ls in Some (EColumn p, r)
  end.
Definition p_operand : parser operand := fun ls =>
  match p_literal ls with
  | Some (l, r) => Some (OLiteral l, r)
  | None => let? (e, r) := p_expr ls in Some (OExpr e, r)
  end.
(** column operator value | column [NOT] IN ( values ) *)
Definition in_list (ls : list lexeme) : option (bool * list lexeme) :=
  match keyword (lit "IN") ls with
  | Some r => Some (false, r)
  | None => let? r := keyword (lit "NOT") ls in let? r' := keyword (lit "IN") r in Some (true, r')
  end.
Definition p_predicate : parser sexp := fun ls =>
  let? (p, r) := p_expr ls in
  match in_list r with
  | Some (neg, r') => let? (l, r'') := p_bracketed p_literal r' in Some (SIn p neg l, r'')
  | None => let? (o, r') := p_operator r in let? (x, r'') := p_operand r' in Some (SCompare p o x, r'')
  end.
(** search ::= term [OR search]    term ::= factor [AND term]
    factor ::= NOT factor | ( search ) | predicate *)
Inductive level := Search | Term | Factor.
Fixpoint p_exp (n : nat) (l : level) (ls : list lexeme) : option (sexp * list lexeme) :=
  match n with
  | O => None
  | S n =>
      match l with
      | Search =>
          let? (e, r) := p_exp n Term ls in
          match keyword (lit "OR") r with
          | Some r' => let? (f, r'') := p_exp n Search r' in Some (SOr e f, r'')
          | None => Some (e, r)
          end
      | Term =>
          let? (e, r) := p_exp n Factor ls in
          match keyword (lit "AND") r with
          | Some r' => let? (f, r'') := p_exp n Term r' in Some (SAnd e f, r'')
          | None => Some (e, r)
          end
      | Factor =>
          match keyword (lit "NOT") ls with
          | Some r => let? (e, r') := p_exp n Factor r in Some (SNot e, r')
          | None =>
              match sym 40 ls with
              | Some r => let? (e, r') := p_exp n Search r in let? r'' := sym 41 r' in Some (e, r'')
              | None => p_predicate ls
              end
          end
      end
  end.
(** Enough steps for any text: every step down reads a symbol or goes down a level. *)
Definition p_search : parser sexp := fun ls => p_exp (3 * List.length ls + 3) Search ls.

(** A clause that may be missing. *)
Definition p_clause {A} (kws : list str) (p : parser A) : parser (option A) := fun ls =>
  match fold_left (fun o w => match o with Some r => keyword w r | None => None end) kws (Some ls) with
  | Some r => let? (x, r') := p r in Some (Some x, r')
  | None => Some (None, ls)
  end.
Definition p_aliased {A} (p : parser A) : parser (A * option path) := fun ls =>
  let? (x, r) := p ls in
  let? (a, r') := p_clause [lit "AS"] p_column r in Some ((x, a), r').
Definition p_joinkind : parser joinkind := fun ls =>
  match keyword (lit "JOIN") ls with
  | Some r => Some (InnerJoin, r)
  | None =>
  match keyword (lit "LEFT") ls with
  | Some r => let? r' := keyword (lit "JOIN") r in Some (LeftJoin, r')
  | None =>
  match keyword (lit "RIGHT") ls with
  | Some r => let? r' := keyword (lit "JOIN") r in Some (RightJoin, r')
  | None => let? r := keyword (lit "FULL") ls in let? r' := keyword (lit "JOIN") r in Some (FullJoin, r')
  end end end.
Fixpoint p_joins (n : nat) (ls : list lexeme) : option (list joined * list lexeme) :=
  match n with
  | O => Some ([], ls)
  | S n =>
      match p_joinkind ls with
      | Some (k, r) =>
          let? ((t, a), r1) := p_aliased p_column r in
          let? (e, r2) := p_clause [lit "ON"] p_search r1 in
          let? (js, r3) := p_joins n r2 in Some (MkJoined k t a e :: js, r3)
      | None => Some ([], ls)
      end
  end.
Definition p_source : parser source := fun ls =>
  let? ((t, a), r) := p_aliased p_column ls in
  let? (js, r') := p_joins (List.length r) r in Some (MkSource t a js, r').
Definition p_ordering : parser (expr * bool) := fun ls =>
  let? (p, r) := p_expr ls in
  match keyword (lit "DESC") r with Some r' => Some ((p, true), r') | None => Some ((p, false), r) end.
Definition p_int : parser Z := fun ls =>
  match p_atom ls with Some (LInt z, r) => Some (z, r) | _ => None end.
Definition select_options : list str :=
  [lit "ALL"; lit "DISTINCT"; lit "DISTINCTROW"; lit "HIGH_PRIORITY"; lit "SQL_BIG_RESULT"; lit "SQL_BUFFER_RESULT";
   lit "SQL_CACHE"; lit "SQL_CALC_FOUND_ROWS"; lit "SQL_NO_CACHE"; lit "SQL_SMALL_RESULT"; lit "STRAIGHT_JOIN"].
Fixpoint p_options (ls : list lexeme) : list str * list lexeme :=
  match ls with
  | XWord w :: r => if existsb (seqb w) select_options then (let (os, r') := p_options r in (w :: os, r')) else ([], ls)
  | _ => ([], ls)
  end.
Definition p_flag (kws : list str) : parser bool := fun ls =>
  let? (o, r) := p_clause kws (fun r => Some (tt, r)) ls in
  Some (match o with Some _ => true | None => false end, r).
Definition or_nil {A} (o : option (list A)) : list A := match o with Some l => l | None => [] end.
Definition p_assign : parser (path * literal) := fun ls =>
  let? (p, r) := p_column ls in let? r' := sym 61 r in let? (x, r'') := p_literal r' in Some ((p, x), r'').

Definition p_statement : parser statement := fun ls =>
  match ls with
  | XWord w :: r =>
      if seqb w (lit "SELECT") then
        let (os, r) := p_options r in
        let? (cs, r) := p_list (p_aliased p_expr) r in
        let? (from, r) := p_clause [lit "FROM"] (p_list p_source) r in
        let? (wh, r) := p_clause [lit "WHERE"] p_search r in
        let? (gr, r) := p_clause [lit "GROUP"; lit "BY"] (p_list p_ordering) r in
        let? (ha, r) := p_clause [lit "HAVING"] p_search r in
        let? (ord, r) := p_clause [lit "ORDER"; lit "BY"] (p_list p_ordering) r in
        let? (l, r) := p_clause [lit "LIMIT"] p_int r in
        let? (o, r) := p_clause [lit "OFFSET"] p_int r in
        let? (fu, r) := p_flag [lit "FOR"; lit "UPDATE"] r in
        Some (StSelect os cs (or_nil from) wh (or_nil gr) ha (or_nil ord) l o fu, r)
      else if seqb w (lit "DELETE") then
        let? (ig, r) := p_flag [lit "IGNORE"] r in
        match keyword (lit "FROM") r with
        | Some r =>
            let? (from, r) := p_list p_source r in
            let? (wh, r) := p_clause [lit "WHERE"] p_search r in
            Some (StDelete ig [] from wh, r)
        | None =>
            let? (ts, r) := p_list p_source r in
            let? r := keyword (lit "FROM") r in
            let? (from, r) := p_list p_source r in
            let? (wh, r) := p_clause [lit "WHERE"] p_search r in
            Some (StDelete ig ts from wh, r)
        end
      else if seqb w (lit "UPDATE") then
        let? (ig, r) := p_flag [lit "IGNORE"] r in
        let? (ts, r) := p_list p_source r in
        let? r := keyword (lit "SET") r in
        let? (sets, r) := p_list p_assign r in
        let? (wh, r) := p_clause [lit "WHERE"] p_search r in
        Some (StUpdate ig ts sets wh, r)
      else if seqb w (lit "INSERT") || seqb w (lit "REPLACE") then
        let? (ig, r) := p_flag [lit "IGNORE"] r in
        let? r := keyword (lit "INTO") r in
        let? (t, r) := p_column r in
        let? (cs, r) := p_bracketed p_column r in
        let? r := keyword (lit "VALUES") r in
        let? (rows, r) := p_list (p_bracketed p_literal) r in
        Some (StInsert (seqb w (lit "REPLACE")) ig t cs rows, r)
      else None
  | _ => None
  end.
(** The statement a text denotes: all of the text has to be used. *)
Definition understood (d : dialect) (t : str) : option statement :=
  match p_statement (lexemes d t) with Some (s, []) => Some s | _ => None end.
Definition understood_condition (d : dialect) (t : str) : option sexp :=
  match p_search (lexemes d t) with Some (s, []) => Some s | _ => None end.

(** ** Truth of a condition.  [compare] is the server's comparison of values that are
    not NULL, [value] gives the value of a column or function. *)
Section Truth.
  Context (compare : compop -> literal -> literal -> bool) (value : expr -> literal).
  Definition null (x : literal) : bool := match x with LNull => true | _ => false end.
  Definition compare3 (o : compop) (x y : literal) : t3 :=
    match o with
    | CIs => Some (match y with LNull => null x | _ => negb (null x) && compare CIs x y end)
    | CIsNot => Some (match y with LNull => negb (null x) | _ => null x || negb (compare CIs x y) end)
    | _ => if null x || null y then None else Some (compare o x y)
    end.
  Definition member3 (x : literal) (l : list literal) : t3 :=
    fold_right (fun y t => or3 (compare3 CEq x y) t) (Some false) l.
  Fixpoint truth (e : sexp) : t3 :=
    match e with
    | SCompare p o (OLiteral y) => compare3 o (value p) y
    | SCompare p o (OExpr q) => compare3 o (value p) (value q)
    | SIn p false l => member3 (value p) l
    | SIn p true l => not3 (member3 (value p) l)
    | SNot e => not3 (truth e)
    | SAnd a b => and3 (truth a) (truth b)
    | SOr a b => or3 (truth a) (truth b)
    end.
  (** The rows a WHERE clause keeps: those for which the condition is true. *)
  Definition kept (wh : option sexp) : bool :=
    match wh with None => true | Some e => match truth e with Some true => true | _ => false end end.
End Truth.

(** ** Execution of statements that concern one table.  A row gives a value to each
    column; a column may be qualified by its table. *)
Record server := MkServer {
  compare : compop -> literal -> literal -> bool;
  call : str -> bool -> list literal -> literal }.  (* the functions of the server *)
Definition row := str -> literal.
Definition database := path -> list row.
Definition column_of (p : path) : str := last p [].
Definition cell (sv : server) (r : row) (e : expr) : literal :=
  match e with
  | EColumn p => r (column_of p)
  | ECall f d ps => call sv f d (map (fun p => r (column_of p)) ps)
  end.
Definition store (r : row) (a : path * literal) : row :=
  fun c => if seqb c (column_of (fst a)) then snd a else r c.
Fixpoint fill (cols : list path) (vals : list literal) : row :=
  match cols, vals with
  | c :: cs, v :: vs => fun x => if seqb x (column_of c) then v else fill cs vs x
  | _, _ => fun _ => LNull
  end.
Fixpoint path_eqb (a b : path) : bool :=
  match a, b with
  | [], [] => true
  | x :: a', y :: b' => seqb x y && path_eqb a' b'
  | _, _ => false
  end.
Definition change (db : database) (t : path) (f : list row -> list row) : database :=
  fun p => if path_eqb p t then f (db p) else db p.
Definition execute (sv : server) (st : statement) (db : database) : option database :=
  match st with
  | StDelete _ [] [MkSource t None []] wh =>
      Some (change db t (filter (fun r => negb (kept (compare sv) (cell sv r) wh))))
  | StUpdate _ [MkSource t None []] sets wh =>
      Some (change db t (map (fun r => if kept (compare sv) (cell sv r) wh then fold_left store sets r else r)))
  | StInsert false _ t cols rows => Some (change db t (fun old => old ++ map (fill cols) rows))
  | _ => None
  end.
