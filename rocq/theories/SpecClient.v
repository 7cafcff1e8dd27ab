(** Specification: the objects a program can make with the functions of the library.
    Any of them may be an argument of any other, configure() may be called in between. *)
From Verif Require Import Base NumFmt Value Backend Eq Render ParseArgs Build Queries History.
Open Scope N_scope.

Definition sel_args (op : selop) : list val :=
  match op with
  | SColumns a k | SFrom a k | SOn a k | SWhere a k | SHaving a k | SGroupBy a k | SOrderBy a k => a ++ map snd k
  | SFromTable t a => [t; a]
  | SLimit a b => [a; b]
  | SJoin _ a | SOffset a | SOut _ a | SOpt _ a | SForUpdate a => [a]
  end.
Definition at_backend (E : env) (b : backend) : world := pure_world (with_be E b).
(** Nothing in it is an empty list.  str() of foreign objects
    and queries other than SELECT as arguments are left out. *)
Inductive client (E : env) : val -> Prop :=
| cl_data : forall v, is_sql v = false -> match v with VSeq _ _ | VDict _ => False | _ => True end -> client E v
| cl_list : forall k l, l <> [] -> (forall x, In x l -> client E x) -> client E (VSeq k l)
| cl_dict : forall items, (forall k v, In (k, v) items -> client E k) ->
    (forall k v, In (k, v) items -> client E v) -> client E (VDict items)
| cl_C : forall b v x, client E v -> mk_custom (at_backend E b) v = Ok x -> client E x                      (* C(v) *)
| cl_V : forall v, client E v -> client E (VSqlV v)                                                         (* V(v) *)
| cl_R : forall v, client E v -> client E (VSqlR v)                                                         (* R(v) *)
| cl_relation : forall k v w, client E v -> mk_rel k v = Ok (VRel k w) -> w <> VSeq KList [] -> client E (VRel k w)   (* GT(v), IN(v) *)
| cl_Q : forall b a k x, (forall y, In y (a ++ map snd k) -> client E y) -> mk_Q (at_backend E b) a k = Ok x -> client E x
| cl_Not : forall b a k x, (forall y, In y (a ++ map snd k) -> client E y) -> mk_Not (at_backend E b) a k = Ok x -> client E x
| cl_op : forall o u v x, client E u -> client E v -> py_binop o u v = Ok x -> client E x                   (* u & v, u | v *)
| cl_exists : forall v, client E v -> client E (VExists v)
| cl_agg : forall k v, client E v -> client E (mk_agg k v)                                                  (* avg(v), count(v) *)
| cl_distinct : forall k d v y, client E (VAgg k d v) -> client E (agg_distinct (VAgg k d v) y)
| cl_concat : forall b a x, (forall y, In y a -> client E y) -> mk_concat (at_backend E b) a = Ok x -> client E x
| cl_group_concat : forall b a x, (forall y, In y a -> client E y) -> mk_group_concat (at_backend E b) a = Ok x -> client E x
| cl_gc_order : forall b f a, client E f -> (forall y, In y a -> client E y) -> client E (fst (gc_order_by (at_backend E b) f a))
| cl_gc_separator : forall f v, client E f -> client E v -> client E (fst (gc_separator f v))
| cl_convert : forall b v ty x, client E v -> mk_convert (at_backend E b) v ty = Ok x -> client E x
| cl_to : forall b f ty, client E f -> client E (fst (convert_to (at_backend E b) f ty))
| cl_select : forall H, (forall b op, In (b, op) H -> forall y, In y (sel_args op) -> client E y) ->
    client E (VSelect (calls sel_step empty_select (program E H))).
