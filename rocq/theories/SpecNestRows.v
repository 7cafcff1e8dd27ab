(** Specification: the rows a statement of SpecNested.v returns or changes when its conditions
    contain queries: IN (SELECT ...), = (SELECT ...), EXISTS (SELECT ...), nested to any depth,
    referring to the rows of the queries around them.  This file does not refer to the model of
    the library. *)
From Verif Require Import Base SpecLex SpecRead SpecLogic SpecSql SpecNested SpecProgram.
Open Scope N_scope.

(** A function that may fail on the elements of a list. *)
Definition mapO {A B} (f : A -> option B) : list A -> option (list B) :=
  fix go l := match l with
              | [] => Some []
              | x :: r => let? y := f x in let? ys := go r in Some (y :: ys)
              end.
Definition filterO {A} (f : A -> option bool) : list A -> option (list A) :=
  fix go l := match l with
              | [] => Some []
              | x :: r => let? k := f x in let? ys := go r in Some (if k then x :: ys else ys)
              end.

(** A row under consideration: the name or alias by which it is called, its table. *)
Record scope := MkScope { sc_name : path; sc_table : path; sc_row : row }.
(** The name ends with the qualifier: t of db.t. *)
Definition called (qualifier name : path) : bool :=
  path_eqb qualifier (skipn (List.length name - List.length qualifier) name).
Definition negate_if (n : bool) (t : t3) : t3 := if n then not3 t else t.

Section Rows.
  (** [has t c]: the table t has the column c.  [total f d xs]: the aggregate function f,
      with DISTINCT or not, of what the rows show. *)
  Context (sv : server) (has : path -> str -> bool) (total : str -> bool -> list shown -> literal) (db : database).

  (** The rows of the query and of the queries around it, innermost first.  A column without
      qualifier belongs to the innermost table that has it, another one to the innermost row
      of that name. *)
  Fixpoint lookup (sc : list scope) (p : path) : option literal :=
    match sc with
    | [] => None
    | s :: rest =>
        if match removelast p with [] => has (sc_table s) (column_of p) | q => called q (sc_name s) end
        then if has (sc_table s) (column_of p) then Some (sc_row s (column_of p)) else None
        else lookup rest p
    end.
  (** c, t.c or *. *)
  Definition shown_at (sc : list scope) (p : path) : option shown :=
    if seqb (column_of p) (lit "*")
    then match sc with s :: _ => Some (AllCells (sc_row s)) | [] => None end
    else let? x := lookup sc p in Some (Cell x).
  Definition one_cell (l : list shown) : option literal := match l with [Cell x] => Some x | _ => None end.
  (** A query used as a value: NULL without rows; more than one row is an error. *)
  Definition scalar_of (rows : list (list shown)) : option literal :=
    match rows with [] => Some LNull | [l] => one_cell l | _ => None end.
  Definition in_rows (neg : bool) (x : literal) (rows : list (list shown)) : option t3 :=
    let? xs := mapO one_cell rows in Some (negate_if neg (member3 (compare sv) x xs)).
  (** What the rows of table t show: columns, or the value of one aggregate function.
      [keep]: whether the row is selected. *)
  Definition plain_columns (cols : list (nexpr * option path)) : option (list path) :=
    mapO (fun c => match c with (NColumn p, None) => Some p | _ => None end) cols.
  Definition rows_of (sc : list scope) (t : path) (name : path) (keep : list scope -> option t3) : option (list (list scope)) :=
    filterO (fun s => let? v := keep s in Some (is_true v)) (map (fun r => MkScope name t r :: sc) (db t)).
  Definition show_rows (ps : list path) (rows : list (list scope)) : option (list (list shown)) :=
    mapO (fun s => mapO (shown_at s) ps) rows.
  Definition show_total (f : str) (d : bool) (p : path) (rows : list (list scope)) : option (list (list shown)) :=
    let? xs := mapO (fun s => shown_at s p) rows in Some [[Cell (total f d xs)]].

  (** None: the server refuses the statement. *)
  Fixpoint value (sc : list scope) (e : nexpr) {struct e} : option literal :=
    match e with
    | NColumn p => lookup sc p
    | NLiteral l => Some l
    | NSub q => let? rows := answer sc q in scalar_of rows
    | _ => None
    end
  with test (sc : list scope) (t : ntest) {struct t} : option t3 :=
    match t with
    | TCompare e o x => let? u := value sc e in let? v := value sc x in Some (compare3 (compare sv) o u v)
    | TIn e neg l => let? u := value sc e in let? xs := mapO (value sc) l in Some (negate_if neg (member3 (compare sv) u xs))
    | TInSub e neg q => let? u := value sc e in let? rows := answer sc q in in_rows neg u rows
    | TExists q => let? rows := answer sc q in Some (Some (negb (match rows with [] => true | _ => false end)))
    | TNot a => let? x := test sc a in Some (not3 x)
    | TAnd a b => let? x := test sc a in let? y := test sc b in Some (and3 x y)
    | TOr a b => let? x := test sc a in let? y := test sc b in Some (or3 x y)
    end
  with answer (sc : list scope) (q : nquery) {struct q} : option (list (list shown)) :=
    match q with
    | NQuery c [] [] None None None false => core_answer sc c
    | _ => None
    end
  with core_answer (sc : list scope) (c : ncore) {struct c} : option (list (list shown)) :=
    match c with
    | NCore [] cols [NSource (FName t) al []] wh [] None =>
        let? rows := rows_of sc t (match al with Some a => a | None => t end)
                       (fun s => match wh with Some x => test s x | None => Some (Some true) end) in
        match cols with
        | [(NCall f d [NColumn p], None)] => show_total f d p rows
        | _ => let? ps := plain_columns cols in show_rows ps rows
        end
    | _ => None
    end.

  (** Statements. *)
  Definition returned (st : nstatement) : option (list (list shown)) :=
    match st with NSelect q => answer [] q | _ => None end.
  Definition where_true (t : path) (wh : option ntest) (r : row) : option bool :=
    match wh with Some x => let? v := test [MkScope t t r] x in Some (is_true v) | None => Some true end.
  Definition changed (st : nstatement) : option database :=
    match st with
    | NDelete _ [] [NSource (FName t) None []] wh =>
        let? rows := filterO (fun r => let? k := where_true t wh r in Some (negb k)) (db t) in Some (change db t (fun _ => rows))
    | NUpdate _ [NSource (FName t) None []] sets wh =>
        let? rows := mapO (fun r =>
          let? k := where_true t wh r in
          let? xs := mapO (fun a => let? x := value [MkScope t t r] (snd a) in Some (fst a, x)) sets in
          Some (if k : bool then fold_left store xs r else r)) (db t) in
        Some (change db t (fun _ => rows))
    | _ => None
    end.
End Rows.
