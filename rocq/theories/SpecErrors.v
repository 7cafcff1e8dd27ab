(** Specification: failing calls. *)
From Verif Require Import Base Value Backend Eq Render ParseArgs Build Queries History SpecArgs SpecBackends.
Open Scope N_scope.

(** ** Calls that ask for at most one thing *)
Definition one_name (a : list val) (k : list (str * val)) : Prop :=
  (List.length a + List.length k <= 1)%nat /\ forall items, a = [VDict items] -> (List.length items <= 1)%nat.
Inductive one_pair : list val -> list (str * val) -> Prop :=
| op_none : one_pair [] []                                                                  (* where() *)
| op_keyword : forall c v, one_pair [] [(c, v)]                                             (* where(c=v) *)
| op_pair : forall c v, scalar c -> is_sql c = false \/ is_sql v = false -> one_pair [c; v] []   (* where(c, v) *)
| op_list : forall a l, group a l -> (List.length l <= 1)%nat -> one_pair [a] []            (* where([(c, v)]) *)
| op_dict : forall items k, (List.length items <= 1)%nat -> one_pair [VDict items] k        (* where({c: v}) *)
| op_other : forall a, scalar a -> (forall items, a <> VDict items) -> one_pair [a] [].     (* where(sql) *)
Definition single_table (t : val) : Prop := forall items, t = VDict items -> (List.length items <= 1)%nat.
Definition single_sel (op : selop) : Prop :=
  match op with
  | SColumns a k | SFrom a k | SGroupBy a k | SOrderBy a k => one_name a k
  | SOn a k | SWhere a k | SHaving a k => one_pair a k
  | SLimit _ o => o = VNone
  | SFromTable _ _ | SJoin _ _ | SOffset _ | SOut _ _ | SOpt _ _ | SForUpdate _ => True
  end.
Definition single_upd (op : updop) : Prop :=
  match op with
  | UTable t => single_table t
  | USet a k | UWhere a k | UOn a k => one_pair a k
  | UJoin _ _ | UAllow | UForbid | UIgnore _ => True
  end.
Definition single_del (op : delop) : Prop :=
  match op with
  | DDelete a => one_name a []
  | DFrom a k => one_name a k
  | DWhere a k | DOn a k => one_pair a k
  | DFromTable _ _ | DJoin _ _ | DAllow | DForbid | DIgnore _ => True
  end.
(** values() makes its row apart; on PostgreSQL the conflict column of
    on_duplicate_key_update is stored before the rest is read. *)
Definition single_ins (b : backend) (op : insop) : Prop :=
  match op with
  | IInto t => single_table t
  | IValues _ _ | IIgnore _ => True
  | IOnDup a k => match b with
                  | BMySql => one_pair a k
                  | BPostgres => forall s r, a <> VStr s :: r
                  | BSql | BSqlite => True
                  end
  end.

(** ** Calls with several items *)
(** The items of a call. *)
Definition sel_items (op : selop) (ps : list (val * val)) : Prop :=
  match op with
  | SColumns a k | SGroupBy a k | SOrderBy a k => alias_args a k ps
  | SFrom a k => alias_args (filter truthy a) k ps
  | SWhere a k | SHaving a k | SOn a k => pair_args a k ps
  | _ => False
  end.
(** The call with only the item [p]. *)
Definition pair_alone (p : val * val) : list val := [VSeq KList [VSeq KTuple [fst p; snd p]]].
Definition sel_alone (op : selop) (p : val * val) : selop :=
  match op with
  | SColumns _ _ => SColumns [VSeq KTuple [fst p; snd p]] []
  | SGroupBy _ _ => SGroupBy [VSeq KTuple [fst p; snd p]] []
  | SOrderBy _ _ => SOrderBy [VSeq KTuple [fst p; snd p]] []
  | SFrom _ _ => SFrom [VSeq KTuple [fst p; snd p]] []
  | SWhere _ _ => SWhere (pair_alone p) []
  | SHaving _ _ => SHaving (pair_alone p) []
  | SOn _ _ => SOn (pair_alone p) []
  | _ => op
  end.
(** Keys in order, and some argument is not an SQL object (SQL objects are whole conditions). *)
Definition some_data (a : list val) : Prop := a = [] \/ exists x, In x a /\ is_sql x = false.
(** Not only Q objects: where(q1, q2) takes them as they are. *)
Definition not_only_Q (a : list val) : Prop := a = [] \/ exists x, In x a /\ is_conds x = false.
Definition with_items (op : selop) : Prop :=
  match op with
  | SColumns a k | SGroupBy a k | SOrderBy a k => keys_ok a k
  | SFrom a k => keys_ok (filter truthy a) k
  | SWhere a k | SHaving a k | SOn a k => keys_ok a k /\ not_only_Q a
  | _ => False
  end.

Definition upd_items (op : updop) (ps : list (val * val)) : Prop :=
  match op with UTable t => alias_args (filter truthy [t]) [] ps | USet a k | UWhere a k | UOn a k => pair_args a k ps | _ => False end.
Definition upd_alone (op : updop) (p : val * val) : updop :=
  match op with
  | UTable _ => UTable (VSeq KTuple [fst p; snd p])
  | USet _ _ => USet (pair_alone p) [] | UWhere _ _ => UWhere (pair_alone p) [] | UOn _ _ => UOn (pair_alone p) [] | _ => op end.
Definition with_items_upd (op : updop) : Prop :=
  match op with UTable t => keys_ok (filter truthy [t]) [] | USet a k => keys_ok a k | UWhere a k | UOn a k => keys_ok a k /\ not_only_Q a | _ => False end.
Definition del_items (op : delop) (ps : list (val * val)) : Prop :=
  match op with
  | DDelete a => alias_args (filter truthy a) [] ps
  | DFrom a k => alias_args (filter truthy a) k ps
  | DWhere a k | DOn a k => pair_args a k ps
  | _ => False end.
Definition del_alone (op : delop) (p : val * val) : delop :=
  match op with
  | DDelete _ => DDelete [VSeq KTuple [fst p; snd p]]
  | DFrom _ _ => DFrom [VSeq KTuple [fst p; snd p]] []
  | DWhere _ _ => DWhere (pair_alone p) [] | DOn _ _ => DOn (pair_alone p) [] | _ => op end.
Definition with_items_del (op : delop) : Prop :=
  match op with
  | DDelete a => keys_ok (filter truthy a) []
  | DFrom a k => keys_ok (filter truthy a) k
  | DWhere a k | DOn a k => keys_ok a k /\ not_only_Q a
  | _ => False end.
(** into({'t': 'x', 'u': 'y'}). *)
Definition into_alone (p : val * val) : insop := IInto (VSeq KTuple [fst p; snd p]).
(** on_duplicate_key_update of MySQL; on PostgreSQL the first argument is the conflict column. *)
Definition dup_alone (p : val * val) : insop := IOnDup (pair_alone p) [].
Definition conflict_alone (s : str) (p : val * val) : insop := IOnDup (VStr s :: pair_alone p) [].
(** Calls with Q objects only, and the same call with other arguments. *)
Definition all_Q (a : list val) : Prop := a <> [] /\ Forall (fun x => is_conds x = true) a.
Definition only_Q_sel (op : selop) (a : list val) (with_args : list val -> selop) : Prop :=
  (exists k, op = SWhere a k /\ with_args = fun l => SWhere l []) \/ (exists k, op = SHaving a k /\ with_args = fun l => SHaving l []) \/
  (exists k, op = SOn a k /\ with_args = fun l => SOn l []).
Definition only_Q_upd (op : updop) (a : list val) (with_args : list val -> updop) : Prop :=
  (exists k, op = UWhere a k /\ with_args = fun l => UWhere l []) \/ (exists k, op = UOn a k /\ with_args = fun l => UOn l []).
Definition only_Q_del (op : delop) (a : list val) (with_args : list val -> delop) : Prop :=
  (exists k, op = DWhere a k /\ with_args = fun l => DWhere l []) \/ (exists k, op = DOn a k /\ with_args = fun l => DOn l []).

(** ** Exceptions *)
(** InvalidArgumentException and InvalidQueryException, both SqlPuzzleExceptions. *)
Definition invalid (e : exn) : Prop := e = EInvalidArgument \/ e = EInvalidQuery.
(** The object can be formatted into an error message. *)
Definition printable (E : env) (v : val) : Prop := exists t, text E v = Ok t.
Definition no_odd_direction (a : list val) (k : list (str * val)) : Prop :=
  forall ps p, alias_args a k ps -> In p ps -> is_sql (snd p) = false /\ forall n, snd p <> VInt n.
Definition regular_sel (E : env) (op : selop) : Prop :=
  match op with
  | SColumns a k | SWhere a k | SHaving a k | SOn a k => keys_ok a k
  | SFrom a k => keys_ok (filter truthy a) k
  | SGroupBy a k | SOrderBy a k => keys_ok a k /\ no_odd_direction a k
  | SJoin _ arg => printable E arg
  | SLimit l o => is_sql l = false /\ is_sql o = false
  | SOffset o => is_sql o = false
  | SFromTable _ _ | SOut _ _ | SOpt _ _ | SForUpdate _ => True
  end.
Definition regular_upd (E : env) (op : updop) : Prop :=
  match op with
  | UTable t => keys_ok [t] []
  | USet a k | UWhere a k | UOn a k => keys_ok a k
  | UJoin _ arg => printable E arg
  | UAllow | UForbid | UIgnore _ => True
  end.
Definition regular_del (E : env) (op : delop) : Prop :=
  match op with
  | DDelete a => keys_ok (filter truthy a) []
  | DFrom a k => keys_ok (filter truthy a) k
  | DWhere a k | DOn a k => keys_ok a k
  | DJoin _ arg => printable E arg
  | DFromTable _ _ | DAllow | DForbid | DIgnore _ => True
  end.
Definition regular_ins (E : env) (op : insop) : Prop :=
  match op with
  | IInto t => keys_ok [t] []
  | IValues a k => keys_ok a k
  | IIgnore _ => True
  | IOnDup a k => match e_be E with
                  | BSql => True
                  | BMySql => keys_ok a k
                  | BPostgres => keys_ok (List.tl a) k
                  | BSqlite => a = [] /\ k = []
                  end
  end.
(** Calls with data and SQL objects not compared by text. *)
Definition data_sel (op : selop) : Prop := match op with SJoin _ arg => textless arg | _ => textless_sel op end.
Definition data_ins (op : insop) : Prop := match op with IOnDup a k => textless_args a k | _ => textless_ins op end.

(** ** Calls whose arguments are all of some kind *)
Section Given.
  Context (T : val -> Prop).
  Definition args_given (a : list val) (k : list (str * val)) : Prop := Forall T a /\ Forall (fun p => T (snd p)) k.
  Definition sel_given (op : selop) : Prop :=
    match op with
    | SColumns a k | SFrom a k | SOn a k | SWhere a k | SHaving a k | SGroupBy a k | SOrderBy a k => args_given a k
    | SFromTable t a => T t /\ T a
    | SJoin _ arg => T arg
    | SLimit a b => T a /\ T b
    | SOffset a | SOut _ a | SOpt _ a | SForUpdate a => T a
    end.
  Definition upd_given (op : updop) : Prop :=
    match op with
    | USet a k | UWhere a k | UOn a k => args_given a k
    | UTable t | UIgnore t | UJoin _ t => T t
    | UAllow | UForbid => True
    end.
  Definition del_given (op : delop) : Prop :=
    match op with
    | DFrom a k | DWhere a k | DOn a k => args_given a k
    | DDelete a => Forall T a
    | DFromTable t a => T t /\ T a
    | DJoin _ arg | DIgnore arg => T arg
    | DAllow | DForbid => True
    end.
  Definition ins_given (op : insop) : Prop :=
    match op with
    | IValues a k | IOnDup a k => args_given a k
    | IInto t | IIgnore t => T t
    end.
End Given.
(** str(v) gives a text or raises InvalidArgumentException. *)
Definition prints (E : env) (v : val) : Prop := printable E v \/ text E v = Err EInvalidArgument.
(** Data, and SQL objects that print for every backend; in an object that is compared by its
    parts, the parts too. *)
Inductive tame (E : env) : val -> Prop :=
| tm : forall v, (is_sql v = true -> forall b, prints (with_be E b) v) ->
    (textual_eq v = false -> forall x, In x (children v) -> tame E x) -> tame E v.
