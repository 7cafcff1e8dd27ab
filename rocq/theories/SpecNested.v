(** Specification: a larger SQL server.  Like SpecSql.v, whose words, symbols and small
    parsers it uses, but with queries inside queries, UNION, EXISTS, nested functions,
    INTO OUTFILE and ON DUPLICATE KEY UPDATE.  This file does not refer
    to the model of the library. *)
From Verif Require Import Base SpecLex SpecRead SpecLogic SpecSql.
Open Scope N_scope.

(** ** What a statement can say *)
Inductive nexpr :=
| NColumn (p : path)
| NLiteral (l : literal)
| NCall (f : str) (distinct : bool) (args : list nexpr)
| NGroupConcat (args : list nexpr) (order_by : list (nexpr * bool)) (separator : option nexpr)
| NConvert (e : nexpr) (ty : str)
| NSub (q : nquery)                                     (* the value of a query *)
with ntest :=
| TCompare (e : nexpr) (o : compop) (x : nexpr)
| TIn (e : nexpr) (negated : bool) (l : list nexpr)
| TInSub (e : nexpr) (negated : bool) (q : nquery)
| TExists (q : nquery)
| TNot (t : ntest) | TAnd (a b : ntest) | TOr (a b : ntest)
with nfrom := FName (p : path) | FSub (q : nquery)
with njoin := NJoin (k : joinkind) (f : nfrom) (alias : option path) (on : option ntest)
with nsource := NSource (f : nfrom) (alias : option path) (joins : list njoin)
with ncore := NCore (options : list str) (columns : list (nexpr * option path)) (from : list nsource)
    (where_ : option ntest) (group_by : list (nexpr * bool)) (having : option ntest)
with nout := NOut (file : nexpr) (fields : option (nexpr * option nexpr)) (lines : option nexpr)
(** SELECTs joined by UNION (false) or UNION ALL (true); what follows concerns the whole. *)
with nquery := NQuery (first : ncore) (unions : list (bool * ncore)) (order_by : list (nexpr * bool))
    (limit offset : option Z) (out : option nout) (for_update : bool).
Inductive nstatement :=
| NSelect (q : nquery)
| NDelete (ignore : bool) (targets : list nsource) (from : list nsource) (where_ : option ntest)
| NUpdate (ignore : bool) (tables : list nsource) (sets : list (path * nexpr)) (where_ : option ntest)
| NInsert (replace ignore : bool) (table : path) (columns : list path) (rows : list (list nexpr))
    (on_duplicate : list (path * nexpr)).

(** AND is associative: brackets inside a conjunction are forgotten. *)
Fixpoint and_then (a b : ntest) : ntest :=
  match a with TAnd x y => TAnd x (and_then y b) | _ => TAnd a b end.

(** ** The parser *)
Section Open.
  Context (px : parser nexpr) (pq : parser nquery).
  (** ( SELECT ... ) *)
  Definition p_sub : parser nquery := fun ls =>
    let? r := sym 40 ls in let? _ := keyword (lit "SELECT") r in
    let? (q, r) := pq r in let? r := sym 41 r in Some (q, r).
  Definition p_ordered : parser (nexpr * bool) := fun ls =>
    let? (e, r) := px ls in
    match keyword (lit "DESC") r with Some r' => Some ((e, true), r') | None => Some ((e, false), r) end.
  (** literal | ( query ) | FUNCTION(...) | column *)
  Definition p_nexpr : parser nexpr := fun ls =>
    match p_literal ls with
    | Some (l, r) => Some (NLiteral l, r)
    | None =>
    match p_sub ls with
    | Some (q, r) => Some (NSub q, r)
    | None =>
    match ls with
    | XWord f :: r =>
        let? r := sym 40 r in
        if seqb f (lit "GROUP_CONCAT") then
          let? (xs, r) := p_list px r in
          let? (o, r) := p_clause [lit "ORDER"; lit "BY"] (p_list p_ordered) r in
          let? (s, r) := p_clause [lit "SEPARATOR"] px r in
          let? r := sym 41 r in Some (NGroupConcat xs (or_nil o) s, r)
        else if seqb f (lit "CONVERT") then
          let? (x, r) := px r in
          let? r := sym 44 r in
          match r with
          | XWord ty :: r => let? r := sym 41 r in Some (NConvert x ty, r)
          | _ => None
          end
        else
          let? (d, r) := p_flag [lit "DISTINCT"] r in
          let? (xs, r) := p_list px r in
          let? r := sym 41 r in Some (NCall f d xs, r)
    | _ => let? (p, r) := p_column ls in Some (NColumn p, r)
    end end end.

  (** expression operator expression | expression [NOT] IN ( query or list ) *)
  Definition p_comparison : parser ntest := fun ls =>
    let? (e, r) := px ls in
    match in_list r with
    | Some (neg, r) =>
        match p_sub r with
        | Some (q, r) => Some (TInSub e neg q, r)
        | None => let? (l, r) := p_bracketed px r in Some (TIn e neg l, r)
        end
    | None => let? (o, r) := p_operator r in let? (x, r) := px r in Some (TCompare e o x, r)
    end.
  (** search ::= term [OR search]    term ::= factor [AND term]
      factor ::= NOT factor | EXISTS ( query ) | ( search ) | comparison *)
  Fixpoint p_ntest (n : nat) (l : level) (ls : list lexeme) : option (ntest * list lexeme) :=
    match n with
    | O => None
    | S n =>
        match l with
        | Search =>
            let? (e, r) := p_ntest n Term ls in
            match keyword (lit "OR") r with
            | Some r => let? (f, r) := p_ntest n Search r in Some (TOr e f, r)
            | None => Some (e, r)
            end
        | Term =>
            let? (e, r) := p_ntest n Factor ls in
            match keyword (lit "AND") r with
            | Some r => let? (f, r) := p_ntest n Term r in Some (and_then e f, r)
            | None => Some (e, r)
            end
        | Factor =>
            match keyword (lit "NOT") ls with
            | Some r => let? (e, r) := p_ntest n Factor r in Some (TNot e, r)
            | None =>
            match keyword (lit "EXISTS") ls with
            | Some r => let? (q, r) := p_sub r in Some (TExists q, r)
            | None =>
            match sym 40 ls with
            | Some r =>
                match keyword (lit "SELECT") r with
                | Some _ => p_comparison ls
                | None => let? (e, r) := p_ntest n Search r in let? r := sym 41 r in Some (e, r)
                end
            | None => p_comparison ls
            end end end
        end
    end.
  Definition p_condition : parser ntest := fun ls => p_ntest (3 * List.length ls + 3) Search ls.

  Definition p_from : parser nfrom := fun ls =>
    match p_sub ls with
    | Some (q, r) => Some (FSub q, r)
    | None => let? (p, r) := p_column ls in Some (FName p, r)
    end.
  Definition p_njoin : parser njoin := fun ls =>
    let? (k, r) := p_joinkind ls in
    let? ((f, a), r) := p_aliased p_from r in
    let? (e, r) := p_clause [lit "ON"] p_condition r in Some (NJoin k f a e, r).
  Fixpoint p_njoins (n : nat) (ls : list lexeme) : option (list njoin * list lexeme) :=
    match n with
    | O => Some ([], ls)
    | S n =>
        match p_joinkind ls with
        | Some _ => let? (j, r) := p_njoin ls in let? (js, r) := p_njoins n r in Some (j :: js, r)
        | None => Some ([], ls)
        end
    end.
  Definition p_nsource : parser nsource := fun ls =>
    let? ((f, a), r) := p_aliased p_from ls in
    let? (js, r) := p_njoins (List.length r) r in Some (NSource f a js, r).
  Definition p_nassign : parser (path * nexpr) := fun ls =>
    let? (p, r) := p_column ls in let? r := sym 61 r in let? (x, r) := px r in Some ((p, x), r).

  Definition p_core : parser ncore := fun ls =>
    let? r := keyword (lit "SELECT") ls in
    let (os, r) := p_options r in
    let? (cs, r) := p_list (p_aliased px) r in
    let? (from, r) := p_clause [lit "FROM"] (p_list p_nsource) r in
    let? (wh, r) := p_clause [lit "WHERE"] p_condition r in
    let? (gr, r) := p_clause [lit "GROUP"; lit "BY"] (p_list p_ordered) r in
    let? (ha, r) := p_clause [lit "HAVING"] p_condition r in
    Some (NCore os cs (or_nil from) wh (or_nil gr) ha, r).
  Fixpoint p_unions (n : nat) (ls : list lexeme) : option (list (bool * ncore) * list lexeme) :=
    match n with
    | O => Some ([], ls)
    | S n =>
        match keyword (lit "UNION") ls with
        | Some r =>
            let? (a, r) := p_flag [lit "ALL"] r in
            let? (c, r) := p_core r in
            let? (us, r) := p_unions n r in Some ((a, c) :: us, r)
        | None => Some ([], ls)
        end
    end.
  (** INTO OUTFILE x [FIELDS TERMINATED BY x [OPTIONALLY ENCLOSED BY x]] [LINES TERMINATED BY x] *)
  Definition p_fields : parser (nexpr * option nexpr) := fun ls =>
    let? (x, r) := px ls in
    let? (y, r) := p_clause [lit "OPTIONALLY"; lit "ENCLOSED"; lit "BY"] px r in Some ((x, y), r).
  Definition p_out : parser nout := fun ls =>
    let? (x, r) := px ls in
    let? (f, r) := p_clause [lit "FIELDS"; lit "TERMINATED"; lit "BY"] p_fields r in
    let? (l, r) := p_clause [lit "LINES"; lit "TERMINATED"; lit "BY"] px r in
    Some (NOut x f l, r).
  Definition p_query : parser nquery := fun ls =>
    let? (c, r) := p_core ls in
    let? (us, r) := p_unions (List.length r) r in
    let? (ord, r) := p_clause [lit "ORDER"; lit "BY"] (p_list p_ordered) r in
    let? (l, r) := p_clause [lit "LIMIT"] p_int r in
    let? (o, r) := p_clause [lit "OFFSET"] p_int r in
    let? (out, r) := p_clause [lit "INTO"; lit "OUTFILE"] p_out r in
    let? (fu, r) := p_flag [lit "FOR"; lit "UPDATE"] r in
    Some (NQuery c us (or_nil ord) l o out fu, r).
  Definition p_nstatement : parser nstatement := fun ls =>
    match ls with
    | XWord w :: r =>
        if seqb w (lit "SELECT") then let? (q, r) := p_query ls in Some (NSelect q, r)
        else if seqb w (lit "DELETE") then
          let? (ig, r) := p_flag [lit "IGNORE"] r in
          match keyword (lit "FROM") r with
          | Some r =>
              let? (from, r) := p_list p_nsource r in
              let? (wh, r) := p_clause [lit "WHERE"] p_condition r in
              Some (NDelete ig [] from wh, r)
          | None =>
              let? (ts, r) := p_list p_nsource r in
              let? r := keyword (lit "FROM") r in
              let? (from, r) := p_list p_nsource r in
              let? (wh, r) := p_clause [lit "WHERE"] p_condition r in
              Some (NDelete ig ts from wh, r)
          end
        else if seqb w (lit "UPDATE") then
          let? (ig, r) := p_flag [lit "IGNORE"] r in
          let? (ts, r) := p_list p_nsource r in
          let? r := keyword (lit "SET") r in
          let? (sets, r) := p_list p_nassign r in
          let? (wh, r) := p_clause [lit "WHERE"] p_condition r in
          Some (NUpdate ig ts sets wh, r)
        else if seqb w (lit "INSERT") || seqb w (lit "REPLACE") then
          let? (ig, r) := p_flag [lit "IGNORE"] r in
          let? r := keyword (lit "INTO") r in
          let? (t, r) := p_column r in
          let? (cs, r) := p_bracketed p_column r in
          let? r := keyword (lit "VALUES") r in
          let? (rows, r) := p_list (p_bracketed px) r in
          let? (dup, r) := p_clause [lit "ON"; lit "DUPLICATE"; lit "KEY"; lit "UPDATE"] (p_list p_nassign) r in
          Some (NInsert (seqb w (lit "REPLACE")) ig t cs rows (or_nil dup), r)
        else None
    | _ => None
    end.
End Open.

(** Expressions and queries contain each other; [n] bounds the nesting. *)
Fixpoint nested (n : nat) : parser nexpr * parser nquery :=
  match n with
  | O => (fun _ => None, fun _ => None)
  | S n => let inner := nested n in let px := p_nexpr (fst inner) (snd inner) in (px, p_query px (snd inner))
  end.
(** Every level of nesting has its own brackets. *)
Definition read_statement (d : dialect) (t : str) : option nstatement :=
  let ls := lexemes d t in
  let n := List.length ls in
  match p_nstatement (fst (nested n)) (snd (nested n)) ls with Some (s, []) => Some s | _ => None end.
Definition read_condition (d : dialect) (t : str) : option ntest :=
  let ls := lexemes d t in
  let n := List.length ls in
  match p_condition (fst (nested n)) (snd (nested n)) ls with Some (s, []) => Some s | _ => None end.
