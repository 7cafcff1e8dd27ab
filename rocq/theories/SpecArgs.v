(** Specification: how the arguments of a builder call are read, from the
    documentation of the calls.  Independent of the model's parser. *)
From Coq Require Import Permutation Sorted.
From Verif Require Import Base Value.
Open Scope N_scope.

(** A list or a tuple with the items [l]. *)
Definition group (v : val) (l : list val) : Prop := v = VSeq KList l \/ v = VSeq KTuple l.
Definition scalar (v : val) : Prop := forall l, ~ group v l.
(** An item of at most two entries, completed with None. *)
Inductive padded : list val -> val * val -> Prop :=
| pad0 : padded [] (VNone, VNone)
| pad1 : forall a, padded [a] (a, VNone)
| pad2 : forall a b, padded [a; b] (a, b).

(** Alphabetical order of texts, by code point. *)
Inductive before : str -> str -> Prop :=
| before_nil : forall c s, before [] (c :: s)
| before_chr : forall c d s t, c < d -> before (c :: s) (d :: t)
| before_same : forall c s t, before s t -> before (c :: s) (c :: t).
(** Order of dictionary keys: texts, or numbers. *)
Inductive key_before : val -> val -> Prop :=
| kb_str : forall s t, before s t -> key_before (VStr s) (VStr t)
| kb_int : forall m n, (m < n)%Z -> key_before (VInt m) (VInt n).
(** A dictionary with text keys or with int keys; keys of a dictionary are distinct. *)
Definition sortable (items : list (val * val)) : Prop :=
  NoDup (map fst items) /\
  ((forall k, In k (map fst items) -> exists s, k = VStr s) \/ (forall k, In k (map fst items) -> exists n, k = VInt n)).
Definition in_key_order (items out : list (val * val)) : Prop :=
  Permutation items out /\ StronglySorted (fun p q => key_before (fst p) (fst q)) out.
(** Keyword arguments as items. *)
Definition kw_items (kwds : list (str * val)) : list (val * val) := map (fun p => (VStr (fst p), snd p)) kwds.

(** *** Calls taking pairs: where, having, on, set, values, Q, Not *)
Definition pair_item (v : val) (p : val * val) : Prop := exists l, group v l /\ padded l p.
Inductive pair_args : list val -> list (str * val) -> list (val * val) -> Prop :=
| pa_two : forall a b kwds kws, scalar a -> in_key_order (kw_items kwds) kws ->
    pair_args [a; b] kwds ((a, b) :: kws)                               (* where('a', 1) *)
| pa_list : forall a l ps kwds kws, group a l -> Forall2 pair_item l ps -> in_key_order (kw_items kwds) kws ->
    pair_args [a] kwds (ps ++ kws)                                      (* where([('a', 1), ('b', 2)]) *)
| pa_dict : forall items ps kwds, in_key_order items ps -> pair_args [VDict items] kwds ps   (* keywords beside a dict are ignored *)
| pa_items : forall args ps kwds kws, List.length args <> 1%nat ->
    (forall a b, args = [a; b] -> ~ scalar a) ->
    Forall2 pair_item args ps -> in_key_order (kw_items kwds) kws ->
    pair_args args kwds (ps ++ kws).                                    (* where(('a', 1), ('b', 2)) *)

(** *** Calls taking names with an optional second entry: columns, from_, order_by, group_by *)
Definition alias_item (v : val) (p : val * val) : Prop :=
  (exists l, group v l /\ padded l p) \/ (scalar v /\ p = (v, VNone)).
Inductive alias_args : list val -> list (str * val) -> list (val * val) -> Prop :=
| aa_dict : forall items ps kwds, in_key_order items ps -> alias_args [VDict items] kwds ps
| aa_items : forall args ps kwds kws, (forall items, args <> [VDict items]) ->
    Forall2 alias_item args ps -> in_key_order (kw_items kwds) kws ->
    alias_args args kwds (ps ++ kws).

(** The dictionaries and keywords the specification speaks about. *)
Definition keys_ok (args : list val) (kwds : list (str * val)) : Prop :=
  NoDup (map fst kwds) /\ forall items, args = [VDict items] -> sortable items.

(** The same call with its keywords, or the entries of its only dict argument, in another order. *)
Inductive reordered : list val -> list (str * val) -> list val -> list (str * val) -> Prop :=
| re_kwds : forall args kwds kwds', NoDup (map fst kwds) -> Permutation kwds kwds' ->
    reordered args kwds args kwds'
| re_dict : forall items items' kwds, NoDup (map fst kwds) -> sortable items -> Permutation items items' ->
    reordered [VDict items] kwds [VDict items'] kwds.

(** A call taking pairs with an item that is not even a list or tuple. *)
Definition has_scalar_item (args : list val) : Prop :=
  (exists a l x, args = [a] /\ group a l /\ In x l /\ scalar x)
  \/ (exists a, args = [a] /\ scalar a /\ forall items, a <> VDict items)
  \/ ((List.length args > 2)%nat /\ exists x, In x args /\ scalar x)
  \/ (exists a b, args = [a; b] /\ ~ scalar a /\ scalar b).

(** Data whose Python equality is identity of content: no bool, float, Decimal
    (1 == True == 1.0) and no objects. *)
Inductive plain : val -> Prop :=
| plain_none : plain VNone
| plain_int : forall n, plain (VInt n)
| plain_str : forall s, plain (VStr s)
| plain_bytes : forall b, plain (VBytes b)
| plain_date : forall d, plain (VDate d)
| plain_datetime : forall d t, plain (VDatetime d t)
| plain_list : forall k l, In k [KList; KTuple; KRange] -> Forall plain l -> plain (VSeq k l).
(** A call where(c, v) with a text column and plain data, or a relation of plain data. *)
Definition plain_call (o : val * val) : Prop :=
  exists c v, o = (VStr c, v) /\ (plain v \/ exists rk w, v = VRel rk w /\ plain w).

(** ** Requests
    The items of one call are taken one by one until the first unacceptable one. *)
Inductive accepted (P : val * val -> Prop) : list (val * val) -> list (val * val) -> Prop :=
| acc_none : accepted P [] []
| acc_bad : forall p ps, ~ P p -> accepted P (p :: ps) []
| acc_ok : forall p ps r, P p -> accepted P ps r -> accepted P (p :: ps) (p :: r).
(** What a call of columns, order_by ... asks for; nothing if its arguments cannot be read. *)
Inductive requests (P : val * val -> Prop) (args : list val) (kwds : list (str * val)) : list (val * val) -> Prop :=
| req_unreadable : (forall ps, ~ alias_args args kwds ps) -> requests P args kwds []
| req_items : forall ps r, alias_args args kwds ps -> accepted P ps r -> requests P args kwds r.

(** [out] are the elements of [l] in the order of their first occurrence. *)
Inductive first_occurrences {A} : list A -> list A -> Prop :=
| fo_nil : first_occurrences [] []
| fo_new : forall l out x, first_occurrences l out -> ~ In x l -> first_occurrences (l ++ [x]) (out ++ [x])
| fo_again : forall l out x, first_occurrences l out -> In x l -> first_occurrences (l ++ [x]) out.

(** Columns: text or int names, text or no alias. *)
Definition name_arg (v : val) : Prop := (exists s, v = VStr s) \/ (exists n, v = VInt n).
Definition alias_arg (v : val) : Prop := (exists s, v = VStr s) \/ v = VNone.
Definition column_ok (p : val * val) : Prop :=
  (name_arg (fst p) \/ is_sql (fst p) = true) /\ (alias_arg (snd p) \/ is_sql (snd p) = true).
(** No SQL objects among the items. *)
Definition data_items (ps : list (val * val)) : Prop := Forall (fun p => is_sql (fst p) = false /\ is_sql (snd p) = false) ps.

(** Directions of ORDER BY and GROUP BY; [up] is Python's str.upper. *)
Definition direction (up : str -> str) (v : val) (d : sortd) : Prop :=
  (v = VNone /\ d = Asc) \/
  (exists s, v = VStr s /\ ((up s = lit "ASC" /\ d = Asc) \/ (up s = lit "DESC" /\ d = Desc))).
(** The last direction asked for column [c]. *)
Definition last_direction (up : str -> str) (l : list (val * val)) (c : val) (d : sortd) : Prop :=
  exists pre v post, l = pre ++ (c, v) :: post /\ ~ In c (map fst post) /\ direction up v d.
