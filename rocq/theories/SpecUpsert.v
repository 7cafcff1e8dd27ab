(** Specification: insert programs with on_duplicate_key_update on tables with unique keys.
    SpecProgram.v: the data and the pairs; SpecNested.v: the statements; SpecSql.v: rows. *)
From Verif Require Import Base NumFmt Value Render ParseArgs Build Queries History SpecLex SpecRef SpecLogic SpecHistory SpecArgs SpecErrors SpecClauses SpecWhole
  SpecSql SpecServer SpecNested SpecProgram.
Open Scope N_scope.

(** ** The server.  Each member of [keys] is a set of columns in which no two rows agree;
    NULL agrees with nothing. *)
Section Server.
  Context (sv : server) (keys : list (list str)).
  Definition clash (r s : row) : bool :=
    existsb (fun key => forallb (fun c => is_true (compare3 (compare sv) CEq (r c) (s c))) key) keys.
  Fixpoint change_first (r : row) (f : row -> row) (rows : list row) : list row :=
    match rows with
    | [] => []
    | x :: l => if clash x r then f x :: l else x :: change_first r f l
    end.
  (** One row: REPLACE removes the rows in its way; ON DUPLICATE KEY UPDATE changes the
      first of them instead; IGNORE leaves the new row out; otherwise there is an error. *)
  Definition insert_one (replace ignore : bool) (on_duplicate : option (row -> row)) (rows : list row) (r : row) : option (list row) :=
    if replace then Some (filter (fun x => negb (clash x r)) rows ++ [r])
    else if negb (existsb (fun x => clash x r) rows) then Some (rows ++ [r])
    else match on_duplicate with
         | Some f => Some (change_first r f rows)
         | None => if ignore then Some rows else None
         end.
  Fixpoint insert_all (replace ignore : bool) (on_duplicate : option (row -> row)) (rows news : list row) : option (list row) :=
    match news with
    | [] => Some rows
    | r :: news' => match insert_one replace ignore on_duplicate rows r with
                    | Some rows' => insert_all replace ignore on_duplicate rows' news'
                    | None => None
                    end
    end.
  (** What a statement whose cells and assignments are literals makes of the rows of table t. *)
  Definition literal_in (e : nexpr) : option literal := match e with NLiteral l => Some l | _ => None end.
  Fixpoint literals_in (l : list nexpr) : option (list literal) :=
    match l with
    | [] => Some []
    | e :: l' => match literal_in e, literals_in l' with Some x, Some xs => Some (x :: xs) | _, _ => None end
    end.
  Fixpoint rows_in (l : list (list nexpr)) : option (list (list literal)) :=
    match l with
    | [] => Some []
    | e :: l' => match literals_in e, rows_in l' with Some x, Some xs => Some (x :: xs) | _, _ => None end
    end.
  Inductive inserts : nstatement -> path -> list row -> option (list row) -> Prop :=
  | inserts_ : forall re ig t cols rows dup cells sets old,
      rows_in rows = Some cells -> literals_in (map snd dup) = Some sets ->
      inserts (NInsert re ig t cols rows dup) t old
        (insert_all re ig (match dup with [] => None | _ => Some (fold_left store (List.combine (map fst dup) sets)) end) old (map (fill cols) cells)).
End Server.

(** ** The program *)
Record inserted := MkInserted { in_rows : list (list (val * val)); in_update : list (val * val) }.
Section Program.
  Context (b : backend).
  (** [bo] is the backend when the call is made, [b] that of the text. *)
  Definition upsert_call (bo : backend) (op : insop) (g : inserted) : Prop :=
    match op with
    | IValues a k => exists ps, g = MkInserted [ps] [] /\ set_call b a k ps /\ none_returns (stores b ps)
    | IIgnore _ => g = MkInserted [] []
    | IOnDup a k =>
        bo = b /\
        match b with
        | BMySql => set_call b a k (in_update g) /\ in_rows g = []
        | BSqlite => a = [] /\ k = [] /\ g = MkInserted [] []
        | _ => False
        end
    | _ => False
    end.
  Definition is_on_dup (op : insop) : bool := match op with IOnDup _ _ => true | _ => false end.
  Definition replaces (ops : list insop) : bool := match b with BSqlite => existsb is_on_dup ops | _ => false end.
  Definition ignores (ops : list insop) : bool :=
    fold_left (fun was op => match op with IIgnore v => truthy v | _ => was end) ops false.
  (** The row of one values(...); the changes of on_duplicate_key_update(...). *)
  Definition given_row (ps : list (val * val)) : row := fun c => match last_for c (stores b ps) with Some l => l | None => LNull end.
  Definition given_update (ps : list (val * val)) : option (row -> row) :=
    match ps with
    | [] => None
    | _ => Some (fun r c => match last_for c (stores b ps) with Some l => l | None => r c end)
    end.
End Program.
(** The same tables, up to the representation of rows. *)
Definition same_table (x y : option (list row)) : Prop :=
  match x, y with
  | Some l, Some m => Forall2 (fun r s => forall c, r c = s c) l m
  | None, None => True
  | _, _ => False
  end.
