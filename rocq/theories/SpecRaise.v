(** Specification: every exception of a builder call and what in the call causes it. *)
From Verif Require Import Base Value Backend Eq Render ParseArgs Build Queries History SpecArgs SpecErrors SpecSame.
Open Scope N_scope.

(** ** The arguments of a call *)
Definition sel_args (op : selop) : list val :=
  match op with
  | SColumns a k | SFrom a k | SOn a k | SWhere a k | SHaving a k | SGroupBy a k | SOrderBy a k => a ++ map snd k
  | SFromTable t a => [t; a]
  | SLimit a b => [a; b]
  | SJoin _ a | SOffset a | SOut _ a | SOpt _ a | SForUpdate a => [a]
  end.
Definition upd_args (op : updop) : list val :=
  match op with
  | USet a k | UWhere a k | UOn a k => a ++ map snd k
  | UTable t | UIgnore t | UJoin _ t => [t]
  | UAllow | UForbid => []
  end.
Definition del_args (op : delop) : list val :=
  match op with
  | DFrom a k | DWhere a k | DOn a k => a ++ map snd k
  | DDelete a => a
  | DFromTable t a => [t; a]
  | DJoin _ a | DIgnore a => [a]
  | DAllow | DForbid => []
  end.
Definition ins_args (op : insop) : list val :=
  match op with IValues a k | IOnDup a k => a ++ map snd k | IInto t | IIgnore t => [t] end.
(** One of the SQL objects in the arguments has no text: str() of it raises [e]. *)
Definition some_object_raises (E : env) (args : list val) (e : exn) : Prop :=
  exists x y, In x args /\ within y x /\ is_sql y = true /\ text E y = Err e.

(** ** Exceptions that are not the library's *)
(** where({'a': 1, 1: 2}): text and numbers are not ordered.  Not decided by the model: keys
    that are neither (dates, tuples), SQL objects with the same text, and a dictionary with the same key twice (not Python). *)
Definition keys_raise (args : list val) (e : exn) : Prop :=
  exists items, args = [VDict items] /\
    ((e = ETypeError /\ (exists k, In k (map fst items) /\ ((exists s, k = VStr s) \/ is_sql k = true)) /\ (exists k, In k (map fst items) /\ ((exists n, k = VInt n) \/ exists b, k = VBool b))) \/
     (e = EUnmodelled /\ (~ NoDup (map fst items) \/ exists k, In k (map fst items) /\ (forall s, k <> VStr s) /\ forall n, k <> VInt n))).
(** order_by(('a', 1)): a direction that is a number or an SQL object has no upper(). *)
Definition odd_direction (args : list val) (kwds : list (str * val)) : Prop :=
  exists d, (is_sql d = true \/ exists n, d = VInt n) /\
    ((exists c, In (c, d) kwds) \/ (exists items c, args = [VDict items] /\ In (c, d) items) \/ (exists x c, In x args /\ group x [c; d])).
Definition order_raises (args : list val) (kwds : list (str * val)) (e : exn) : Prop :=
  keys_raise args e \/ (e = EAttributeError /\ odd_direction args kwds).
(** join(x): x is formatted into the error message. *)
Definition message_raises (E : env) (x : val) (e : exn) : Prop := text E x = Err e.
Definition sel_irregular (E : env) (op : selop) (e : exn) : Prop :=
  match op with
  | SColumns a _ | SWhere a _ | SHaving a _ | SOn a _ => keys_raise a e
  | SFrom a _ => keys_raise (filter truthy a) e
  | SGroupBy a k | SOrderBy a k => order_raises a k e
  | SJoin _ x => message_raises E x e
  | SLimit l o => e = ETypeError /\ (is_sql l = true \/ is_sql o = true)      (* limit(C('5')) *)
  | SOffset o => e = ETypeError /\ is_sql o = true
  | SFromTable _ _ | SOut _ _ | SOpt _ _ | SForUpdate _ => False
  end.
Definition upd_irregular (E : env) (op : updop) (e : exn) : Prop :=
  match op with
  | UTable t => keys_raise [t] e
  | USet a _ | UWhere a _ | UOn a _ => keys_raise a e
  | UJoin _ x => message_raises E x e
  | UAllow | UForbid | UIgnore _ => False
  end.
Definition del_irregular (E : env) (op : delop) (e : exn) : Prop :=
  match op with
  | DDelete a | DFrom a _ => keys_raise (filter truthy a) e
  | DWhere a _ | DOn a _ => keys_raise a e
  | DJoin _ x => message_raises E x e
  | DFromTable _ _ | DAllow | DForbid | DIgnore _ => False
  end.
Definition ins_irregular (E : env) (op : insop) (e : exn) : Prop :=
  match op with
  | IInto t => keys_raise [t] e
  | IValues a _ => keys_raise a e
  | IIgnore _ => False
  | IOnDup a k => match e_be E with
                  | BSql => False
                  | BMySql => keys_raise a e
                  | BPostgres => keys_raise (List.tl a) e
                  | BSqlite => e = EException /\ (a <> [] \/ k <> [])          (* SQLite only has REPLACE INTO *)
                  end
  end.
