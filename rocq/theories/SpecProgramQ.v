(** Specification: conditions written with Q(...), Not(...), & and |, and what they ask of the values of columns.
    SpecProgram.v: the programs, the pairs and their meaning. *)
From Verif Require Import Base Value Render ParseArgs Build Queries History SpecLex SpecRef SpecLogic SpecArgs SpecSql SpecServer SpecProgram.
Open Scope N_scope.

(** Expressions a user writes: Q( *a, **k ) or Not( *a, **k ) where the arguments give the pairs [ps];
    Q(e1, ..., en) or Not(e1, ..., en); e1 & e2 or e1 | e2. *)
Inductive cexp :=
| XPairs (negated : bool) (a : list val) (k : kwargs) (ps : list (val * val))
| XAll (negated : bool) (l : list cexp)
| XBin (o : bop) (x y : cexp).

(** Python evaluates the expression: the object, or the exception it raises. *)
Fixpoint evaluate (W : world) (e : cexp) : res val :=
  match e with
  | XPairs n a k _ => if n then mk_Not W a k else mk_Q W a k
  | XAll n l => do xs <- mapM (evaluate W) l; if n then mk_Not W xs [] else mk_Q W xs []
  | XBin o x y => do u <- evaluate W x; do v <- evaluate W y; py_binop o u v
  end.

Definition is_Not (e : cexp) : bool := match e with XPairs n _ _ _ | XAll n _ => n | XBin _ _ _ => false end.
(** The library takes Not(...) neither as operand of & or | nor beside another argument. *)
Definition together (l : list cexp) : Prop := l <> [] /\ (List.length l = 1%nat \/ forall e, In e l -> is_Not e = false).
Fixpoint sensible (b : backend) (e : cexp) : Prop :=
  match e with
  | XPairs _ a k ps => where_call b a k ps /\ ps <> []
  | XAll _ l => together l /\ (fix all l := match l with [] => True | x :: r => sensible b x /\ all r end) l
  | XBin _ x y => sensible b x /\ sensible b y /\ is_Not x = false /\ is_Not y = false
  end.

Section Meaning.
  (** [at_]: the values of the columns. *)
  Context (b : backend) (sv : server) (at_ : path -> literal).
  Definition pair_says (p : val * val) : t3 := match fst p with VStr c => holds b sv (at_ (name_segments c)) (snd p) | _ => None end.
  Definition negated_if (n : bool) (t : t3) : t3 := if n then not3 t else t.
  Fixpoint says (e : cexp) : t3 :=
    match e with
    | XPairs n _ _ ps => negated_if n (fold_right and3 (Some true) (map pair_says ps))
    | XAll n l => negated_if n (fold_right and3 (Some true) (map says l))
    | XBin OpAnd x y => and3 (says x) (says y)
    | XBin OpOr x y => or3 (says x) (says y)
    end.
End Meaning.

(** What one call of where asks for: pairs, or objects made by such expressions. *)
Definition where_item : Type := (val * val) + cexp.
Inductive where_asks (E : env) (b : backend) : list val -> kwargs -> list where_item -> Prop :=
| wi_pairs : forall a k ps, where_call b a k ps -> where_asks E b a k (map inl ps)
| wi_objects : forall l a, together l -> Forall (sensible b) l ->
    Forall2 (fun e x => evaluate (pure_world (with_be E b)) e = Ok x) l a -> where_asks E b a [] (map inr l).
Definition item_says (b : backend) (sv : server) (at_ : path -> literal) (i : where_item) : t3 :=
  match i with inl p => pair_says b sv at_ p | inr e => says b sv at_ e end.
(** Every item is true. *)
Definition items_hold (b : backend) (sv : server) (at_ : path -> literal) (l : list where_item) : bool :=
  forallb (fun i => is_true (item_says b sv at_ i)) l.
(** Every item is true of the row of a table. *)
Definition in_row (r : row) (p : path) : literal := r (last p []).
Definition matches_items (b : backend) (sv : server) (l : list where_item) (r : row) : bool := items_hold b sv (in_row r) l.
