(** Specification: short programs (delete_from(t).where(...), update(t).set(...).where(...),
    insert_into(t).values(...), select(...).from_(t).where(...).order_by(...).limit(...))
    and what they ask of a table, read directly off the arguments of the calls.
    SpecArgs.v: how pairs are read from arguments.  SpecSql.v: the server. *)
From Coq Require Import Permutation Sorted.
From Verif Require Import Base NumFmt Value Render ParseArgs Build Queries History SpecLex SpecRef SpecLogic SpecHistory SpecArgs SpecErrors SpecWhole SpecSql SpecServer.
Open Scope N_scope.

(** No call of the history raises. *)
Fixpoint all_succeed {Q Op} (step : world -> Q -> Op -> Q * outcome) (q : Q) (H : list (world * Op)) : Prop :=
  match H with
  | [] => True
  | (W, op) :: H' => snd (step W q op) = Ok tt /\ all_succeed step (fst (step W q op)) H'
  end.

(** Columns, conditions and directions asked for by one call. *)
Record asked_by (T : Type) := MkAsked { ab_columns : list (val * val); ab_where : list T; ab_order : list (val * val) }.
Arguments MkAsked {T} _ _ _.
Arguments ab_columns {T} _.
Arguments ab_where {T} _.
Arguments ab_order {T} _.

Section Program.
  Context (b : backend).      (* the backend for which the text is made *)

  (** A finite number which is not an integer.  (The number 2.0 is written 2.00000, although 2 == 2.0: a program that gives
      both for one column may have only one of them written.) *)
  Definition fraction (x : num) : Prop := match x with NFin _ n d => n mod Npos d <> 0 | _ => False end.
  (** ** Data given by the program.  True is the literal 1 but on PostgreSQL, although True == 1. *)
  Definition datum (v : val) : Prop :=
    match v with
    | VNone | VInt _ | VDate _ | VDatetime _ _ => True
    | VBool _ => b <> BPostgres
    | VStr s => ~ reference_shaped (quote_of b) s
    | VFloat x | VDec x => fraction x
    | _ => False
    end.
  (** What a column may be compared with: data, a list of data, or one of the relations. *)
  Definition condition_value (v : val) : Prop :=
    match v with
    | VSeq k l => In k [KList; KTuple; KRange; KGen] /\ l <> [] /\ Forall datum l
    | VRel RIn (VSeq KList l) | VRel RNotIn (VSeq KList l) => l <> [] /\ Forall datum l
    | VRel RIn _ | VRel RNotIn _ => False
    | VRel _ x => datum x
    | _ => datum v
    end.
  (** The pair (c, v) of where(c, v) or where(c=v). *)
  Definition where_pair (p : val * val) : Prop :=
    (exists c, fst p = VStr c /\ good_name (quote_of b) c) /\ condition_value (snd p).
  Definition where_call (a : list val) (k : kwargs) (ps : list (val * val)) : Prop :=
    keys_ok a k /\ some_data a /\ pair_args a k ps /\ Forall where_pair ps.

  (** What the pair (c, v) says of the cell x of column c. *)
  Definition holds (sv : server) (x : literal) (v : val) : t3 :=
    match v with
    | VNone => Some (null x)
    | VSeq _ l | VRel RIn (VSeq _ l) => one_of b (compare sv) x l
    | VRel RNotIn (VSeq _ l) => none_of b (compare sv) x l
    | VRel rk y => match operator_of rk, literal_of b y with
                   | Some o, Some l => compare3 (compare sv) o x l
                   | _, _ => None
                   end
    | _ => match literal_of b v with Some l => compare3 (compare sv) CEq x l | None => None end
    end.
  Definition column (r : row) (c : str) : literal := r (last (name_segments c) []).
  Definition is_true (t : t3) : bool := match t with Some true => true | _ => false end.
  (** The row satisfies every pair. *)
  Definition matches (sv : server) (pairs : list (val * val)) (r : row) : bool :=
    forallb (fun p => match fst p with VStr c => is_true (holds sv (column r c) (snd p)) | _ => false end) pairs.

  (** The next definitions are about any way [wc] of reading conditions of type [T] from the
      arguments of where: pairs here, trees of Q objects in SpecProgramQ.v. *)
  (** ** DELETE *)
  Definition delete_call {T} (wc : list val -> kwargs -> list T -> Prop) (op : delop) (ps : list T) : Prop :=
    match op with
    | DWhere a k => wc a k ps
    | DAllow | DForbid | DIgnore _ => ps = []
    | _ => False
    end.

  (** ** UPDATE *)
  Definition cell_value (v : val) : Prop := datum v \/ exists l, v = VBytes l /\ Forall (fun c => c < 256) l.
  Definition set_pair (p : val * val) : Prop :=
    (exists c, fst p = VStr c /\ good_name (quote_of b) c /\ name_segments c = [c]) /\ cell_value (snd p).
  Definition set_call (a : list val) (k : kwargs) (ps : list (val * val)) : Prop :=
    keys_ok a k /\ some_data a /\ pair_args a k ps /\ Forall set_pair ps.
  Definition update_call {T} (wc : list val -> kwargs -> list T -> Prop) (op : updop) (given : list (val * val) * list T) : Prop :=
    match op with
    | USet a k => set_call a k (fst given) /\ snd given = []
    | UWhere a k => fst given = [] /\ wc a k (snd given)
    | UAllow | UForbid | UIgnore _ => given = ([], [])
    | _ => False
    end.
  (** The columns and the values to be stored. *)
  Definition stores (ps : list (val * val)) : list (str * literal) :=
    flat_map (fun p => match fst p, literal_of b (snd p) with VStr c, Some l => [(c, l)] | _, _ => [] end) ps.
  (** No value of a column comes back after another one in between (C33). *)
  Definition none_returns (l : list (str * literal)) : Prop :=
    forall c v pre mid post, l = pre ++ (c, v) :: mid ++ (c, v) :: post -> forall w, In (c, w) mid -> w = v.

  (** ** INSERT *)
  Definition insert_call (op : insop) (given : list (list (val * val))) : Prop :=
    match op with
    | IValues a k => exists ps, given = [ps] /\ set_call a k ps /\ none_returns (stores ps)
    | IIgnore _ => given = []
    | _ => False
    end.

  (** ** SELECT *)
  Definition plain_column (p : val * val) : Prop :=
    (exists c, fst p = VStr c /\ good_name (quote_of b) c) /\
    (snd p = VNone \/ exists a, snd p = VStr a /\ good_name (quote_of b) a).
  (** [up] is Python's str.upper. *)
  Definition select_call {T} (wc : list val -> kwargs -> list T -> Prop) (t : str) (up : str -> str) (op : selop) (g : asked_by T) : Prop :=
    match op with
    | SFrom a k => a = [VStr t] /\ k = [] /\ g = MkAsked [] [] []
    | SColumns a k => keys_ok a k /\ alias_args a k (ab_columns g) /\ Forall plain_column (ab_columns g) /\ ab_where g = [] /\ ab_order g = []
    | SWhere a k => wc a k (ab_where g) /\ ab_columns g = [] /\ ab_order g = []
    | SOrderBy a k => keys_ok a k /\ alias_args a k (ab_order g) /\
        Forall (fun p => (exists c, fst p = VStr c /\ good_name (quote_of b) c) /\ exists d, direction up (snd p) d) (ab_order g) /\
        ab_columns g = [] /\ ab_where g = []
    | SLimit l o => limit_accepts l o /\ g = MkAsked [] [] []
    | SOffset o => limit_arg o /\ g = MkAsked [] [] []
    | SForUpdate _ => g = MkAsked [] [] []
    | _ => False
    end.
End Program.

(** ** Answers to a SELECT from one table.  [le] is the server's order of values. *)
Inductive shown := Cell (x : literal) | AllCells (r : row).
Section Answers.
  Context (sv : server) (le : literal -> literal -> bool) (db : database).
  (** r comes before s or has the same keys; a key with [true] is descending. *)
  Fixpoint in_order (keys : list ((row -> literal) * bool)) (r s : row) : bool :=
    match keys with
    | [] => true
    | (f, desc) :: rest =>
        let (x, y) := if desc : bool then (f s, f r) else (f r, f s) in
        le x y && (negb (le y x) || in_order rest r s)
    end.
  Definition bounded (n : option Z) : Prop := match n with Some z => (0 <= z)%Z | None => True end.
  Definition slice {A} (limit offset : option Z) (l : list A) : list A :=
    let l' := match offset with Some z => skipn (Z.to_nat z) l | None => l end in
    match limit with Some z => firstn (Z.to_nat z) l' | None => l' end.
  Definition show (r : row) (c : expr * option path) : option path * shown :=
    (snd c, match fst c with
            | EColumn p => if seqb (column_of p) (lit "*") then AllCells r else Cell (cell sv r (fst c))
            | _ => Cell (cell sv r (fst c))
            end).
  (** An alias that is also a column of ORDER BY would be taken for the alias. *)
  Inductive answers : statement -> list (list (option path * shown)) -> Prop :=
  | ans : forall cols t wh ord lim off fu rows,
      bounded lim -> bounded off -> (forall a, In (Some a) (map snd cols) -> ~ In (EColumn a) (map fst ord)) ->
      Permutation rows (filter (fun r => kept (compare sv) (cell sv r) wh) (db t)) ->
      StronglySorted (fun r s => in_order (map (fun k => (fun r => cell sv r (fst k), snd k)) ord) r s = true) rows ->
      answers (StSelect [] cols [MkSource t None []] wh [] None ord lim off fu)
        (map (fun r => map (show r) cols) (slice lim off rows)).
  (** What the program asks for: [cols] the columns with their aliases, [wanted] the
      rows, [order] the columns to sort by. *)
  Definition show_column (r : row) (p : val * val) : option path * shown :=
    (match snd p with VStr a => Some (name_segments a) | _ => None end,
     match fst p with
     | VStr c => if seqb (last (name_segments c) []) (lit "*") then AllCells r else Cell (column r c)
     | _ => Cell LNull
     end).
  Definition sort_key (p : val * sortd) : (row -> literal) * bool :=
    (fun r => match fst p with VStr c => column r c | _ => LNull end, match snd p with Desc => true | Asc => false end).
  Inductive program_answers (t : path) (cols : list (val * val)) (wanted : row -> bool) (order : list (val * sortd)) (lim off : option Z)
    : list (list (option path * shown)) -> Prop :=
  | pans : forall rows,
      Permutation rows (filter wanted (db t)) ->
      StronglySorted (fun r s => in_order (map sort_key order) r s = true) rows ->
      program_answers t cols wanted order lim off (map (fun r => map (show_column r) cols) (slice lim off rows)).
End Answers.
