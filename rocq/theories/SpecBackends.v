(** Specification: configuration, UNION, and what depends on the backend. *)
From Verif Require Import Base NumFmt Value Backend Eq Render Build Queries SpecHistory SpecClauses.
Open Scope N_scope.

(** ** Names of databases *)
Definition database_name (b : backend) : str :=
  match b with BSql => lit "sql" | BMySql => lit "mysql" | BPostgres => lit "postgresql" | BSqlite => lit "sqlite" end.
(** [c] is the small letter [d], or the capital letter of [d]. *)
Definition same_letter (c d : chr) : Prop := c = d \/ (c + 32 = d /\ 65 <= c /\ c <= 90).
Definition names (v : val) (b : backend) : Prop := exists s, v = VStr s /\ Forall2 same_letter s (database_name b).
(** Python's lower() of a character outside ASCII contains a character that is in no
    database name.  (Only the Kelvin sign and the dotted capital I yield ASCII at all:
    k, and i followed by a combining dot.) *)
Definition lower_ok (E : env) : Prop :=
  forall c, 128 <= c -> exists d, In d (e_lower E c) /\ forall b, ~ In d (database_name b).

(** The backend after the calls configure(v), v in [l], exceptions caught. *)
Definition configured (E : env) (cur : backend) (l : list val) : backend :=
  fold_left (fun b v => fst (set_backend E b v)) l cur.

(** ** on_duplicate_key_update *)
(** An UPDATE with this SET list, and nothing else. *)
Definition set_list (vals : list val) : updq val := MkUpd false [] vals [] false.
(** The same insert except for one clause. *)
Definition with_dup (q : insq val) d := MkIns (i_replace q) (i_ignore q) (i_tabs q) (i_rows q) d (i_conflict q) (i_upd q).
Definition with_conflict (q : insq val) c u := MkIns (i_replace q) (i_ignore q) (i_tabs q) (i_rows q) (i_dup q) c u.
Definition replacing (q : insq val) := MkIns true (i_ignore q) (i_tabs q) (i_rows q) (i_dup q) (i_conflict q) (i_upd q).
(** The set() calls that say the same as the on_duplicate_key_update() calls. *)
Definition as_set {W} (wo : W * insop) : list (W * updop) :=
  match snd wo with IOnDup a k => [(fst wo, USet a k)] | _ => [] end.

(** ** Expressions of selects combined with & (UNION ALL) and | (UNION) *)
Inductive uexpr (A : Type) := ULeaf (a : A) | UOp (t : uniont) (l r : uexpr A).
Arguments ULeaf {A}. Arguments UOp {A}.
(** What the operands and operators are, from left to right. *)
Fixpoint operands {A} (e : uexpr A) : list A :=
  match e with ULeaf a => [a] | UOp _ l r => operands l ++ operands r end.
Fixpoint operators {A} (e : uexpr A) : list uniont :=
  match e with ULeaf _ => [] | UOp t l r => operators l ++ t :: operators r end.
(** How often a row is in the result of a combination, given how often it is in the operands. *)
Definition combine_rows (t : uniont) (m n : nat) : nat :=
  match t with UAll => (m + n)%nat | UUnion => match (m + n)%nat with O => O | S _ => 1%nat end end.
(** What the expression denotes. *)
Fixpoint denoted (e : uexpr nat) : nat :=
  match e with ULeaf n => n | UOp t l r => combine_rows t (denoted l) (denoted r) end.
(** How SQL reads  q0 op1 q1 op2 q2 ...: from left to right. *)
Fixpoint read_left (acc : nat) (ops : list uniont) (ns : list nat) : nat :=
  match ops, ns with
  | t :: ops', n :: ns' => read_left (combine_rows t acc n) ops' ns'
  | _, _ => acc
  end.
Definition read_sql (e : uexpr nat) : nat :=
  match operands e with n :: ns => read_left n (operators e) ns | [] => O end.
(** The same expression with other operands. *)
Inductive same_shape {A B} : uexpr A -> uexpr B -> Prop :=
| ss_leaf : forall a b, same_shape (ULeaf a) (ULeaf b)
| ss_op : forall t l r l' r', same_shape l l' -> same_shape r r' -> same_shape (UOp t l r) (UOp t l' r').
(** The expressions that are read as they are meant. *)
Fixpoint faithful {A} (e : uexpr A) : Prop :=
  match e with
  | ULeaf _ => True
  | UOp UUnion l r => forall ops t, operators r = ops ++ [t] -> t = UUnion
  | UOp UAll l r => faithful l /\ Forall (eq UAll) (operators r)
  end.
(** The Python object of an expression. *)
Inductive built : uexpr (selq val) -> val -> Prop :=
| bu_leaf : forall q, built (ULeaf q) (VSelect q)
| bu_and : forall l r a b v, built l a -> built r b -> py_binop OpAnd a b = Ok v -> built (UOp UAll l r) v
| bu_or : forall l r a b v, built l a -> built r b -> py_binop OpOr a b = Ok v -> built (UOp UUnion l r) v.
Definition union_word (t : uniont) : str := match t with UUnion => lit " UNION " | UAll => lit " UNION ALL " end.
Fixpoint alternated (ops : list uniont) (ts : list str) : str :=
  match ts, ops with
  | t :: ts', o :: ops' => t ++ union_word o ++ alternated ops' ts'
  | t :: _, [] => t
  | [], _ => []
  end.

(** ** What is built does not depend on the backend *)
(** Data and SQL objects whose == does not compare rendered texts, all the way down:
    everything but C, V, R, functions, Not, Exists and Q objects combined with & and |.
    Keys of dictionaries are data (they are sorted). *)
Inductive textless : val -> Prop :=
| tl : forall v, textual_eq v = false ->
    (forall items, v = VDict items -> Forall (fun p => is_sql (fst p) = false) items) ->
    (forall x, In x (children v) -> textless x) -> textless v.
Definition textless_args (a : list val) (k : list (str * val)) : Prop :=
  Forall textless a /\ Forall (fun p => textless (snd p)) k.
(** full_join and on_duplicate_key_update are made for the backend of the call (C40). *)
Definition textless_sel (op : selop) : Prop :=
  match op with
  | SColumns a k | SFrom a k | SOn a k | SWhere a k | SHaving a k | SGroupBy a k | SOrderBy a k => textless_args a k
  | SFromTable t a => textless t /\ textless a
  | SJoin ty arg => ty <> JFull /\ textless arg
  | SLimit a b => textless a /\ textless b
  | SOffset a | SOut _ a | SOpt _ a | SForUpdate a => textless a
  end.
Definition textless_upd (op : updop) : Prop :=
  match op with
  | USet a k | UWhere a k | UOn a k => textless_args a k
  | UTable t | UIgnore t => textless t
  | UJoin _ arg => textless arg
  | UAllow | UForbid => True
  end.
Definition textless_del (op : delop) : Prop :=
  match op with
  | DFrom a k | DWhere a k | DOn a k => textless_args a k
  | DDelete a => Forall textless a
  | DFromTable t a => textless t /\ textless a
  | DJoin _ arg | DIgnore arg => textless arg
  | DAllow | DForbid => True
  end.
Definition textless_ins (op : insop) : Prop :=
  match op with
  | IValues a k => textless_args a k
  | IInto t | IIgnore t => textless t
  | IOnDup _ _ => False
  end.
