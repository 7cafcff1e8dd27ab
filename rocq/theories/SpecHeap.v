(** Vocabulary for the properties of copy(): which heaps Python can build, when
    two object graphs are alike, and what a program can do with the objects it holds. *)
From Verif Require Import Base NumFmt Value Heap.
Open Scope nat_scope.

(** Object [p] refers to [r]. *)
Definition refers (h : heap) (p : addr) (r : ref) : Prop :=
  exists k l a, get h p = Some (MkObj k l) /\ In (a, r) l.
(** [b] can be reached from [a]. *)
Inductive reach (h : heap) : ref -> ref -> Prop :=
| reach_refl : forall r, reach h r r
| reach_step : forall p r s, refers h p r -> reach h r s -> reach h (RPtr p) s.

Definition kind_of (h : heap) (p : addr) : option kind := option_map o_kind (get h p).

(** References lead to objects. *)
Definition closed (h : heap) : Prop := forall p q, refers h p (RPtr q) -> q < List.length h.
(** Tuples, sets and frozensets are copied after their parts. *)
Definition composite (k : kind) : Prop := k = OTuple \/ k = OSet \/ k = OFrozenset.

(** What every heap of a Python program satisfies, but for the fourth item:
    - there are no dangling references;
    - a bound method has a function and an object, an instance of a class;
    - there is no cycle of tuples, sets and frozensets alone;
    - no set or frozenset contains (indirectly) itself.  Sets occur in queries
      only as data: set([...]) given as a value. *)
Record well_formed (h : heap) : Prop := {
  wf_closed : closed h;
  wf_method : forall p l, get h p = Some (MkObj OMethod l) ->
    exists f s c, l = [(LFunc, RAtom (AFun f)); (LSelf, RPtr s)] /\ kind_of h s = Some (OInst c);
  wf_rank : exists rank : addr -> nat,
    (forall p, p < List.length h -> rank p <= List.length h) /\
    (forall p q k k', kind_of h p = Some k -> composite k -> refers h p (RPtr q) ->
       kind_of h q = Some k' -> composite k' -> rank q < rank p);
  wf_sets : forall p k r, kind_of h p = Some k -> k = OSet \/ k = OFrozenset ->
    refers h p r -> ~ reach h r (RPtr p) }.

(** The object graphs at [r] and at [r'] have the same shape: related objects are
    of the same kind and have related parts under the same names, equal data
    sits in the same places, and what is one object on one side is one object on
    the other.  (Bound methods have no identity of their own.) *)
Record alike_by (B : ref -> ref -> Prop) (h h' : heap) : Prop := {
  al_atom : forall a r', B (RAtom a) r' -> r' = RAtom a;
  al_obj : forall p r', B (RPtr p) r' -> exists q k l l',
    r' = RPtr q /\ get h p = Some (MkObj k l) /\ get h' q = Some (MkObj k l') /\
    Forall2 (fun x x' => fst x = fst x' /\ B (snd x) (snd x')) l l';
  al_one : forall p q p' q', B (RPtr p) (RPtr q) -> B (RPtr p') (RPtr q') ->
    kind_of h p <> Some OMethod -> kind_of h p' <> Some OMethod -> (p = p' <-> q = q') }.
Definition alike (h : heap) (r : ref) (h' : heap) (r' : ref) : Prop :=
  exists B, alike_by B h h' /\ B r r'.

(** ** Programs

    What any program can do with a heap when it holds the references [K]:
    create an object, or change a list, a dictionary, a set or an instance it can
    reach, putting in references it can reach.  Methods of the library are such
    programs: Python code gets at objects only through references it has. *)
Definition held (h : heap) (K : list ref) (r : ref) : Prop :=
  (exists a, r = RAtom a) \/ exists k, In k K /\ reach h k r.
Definition mutable (k : kind) : Prop := k = OList \/ k = ODict \/ k = OSet \/ exists c, k = OInst c.
Inductive step (K : list ref) (h : heap) : list ref -> heap -> Prop :=
| st_new : forall k l, (forall a r, In (a, r) l -> held h K r) ->
    step K h (RPtr (List.length h) :: K) (h ++ [MkObj k l])
| st_write : forall p k l l', held h K (RPtr p) -> get h p = Some (MkObj k l) -> mutable k ->
    (forall a r, In (a, r) l' -> held h K r) ->
    step K h K (put h p (MkObj k l')).
Inductive run (K : list ref) (h : heap) : list ref -> heap -> Prop :=
| run_end : run K h K h
| run_step : forall K1 h1 K2 h2, step K h K1 h1 -> run K1 h1 K2 h2 -> run K h K2 h2.

(** Two programs (or two parts of one), each with the references it holds,
    taking turns on the same heap. *)
Inductive turns (KA KB : list ref) (h : heap) : list ref -> list ref -> heap -> Prop :=
| turn_end : turns KA KB h KA KB h
| turn_a : forall KA1 h1 KA2 KB2 h2, step KA h KA1 h1 -> turns KA1 KB h1 KA2 KB2 h2 -> turns KA KB h KA2 KB2 h2
| turn_b : forall KB1 h1 KA2 KB2 h2, step KB h KB1 h1 -> turns KA KB1 h1 KA2 KB2 h2 -> turns KA KB h KA2 KB2 h2.

(** Everything that can be reached from [K] is in [h'] what it is in [h]. *)
Definition untouched (K : list ref) (h h' : heap) : Prop :=
  (forall q, held h K (RPtr q) -> get h' q = get h q) /\
  (forall r n, held h K r -> decode h' n r = decode h n r).
