(** Specification: which items the builder calls accept, from the documentation of the calls.
    How the items are read from the arguments is SpecArgs.v (pair_args, alias_args). *)
From Verif Require Import Base Value Backend Eq Render ParseArgs Build Queries SpecArgs SpecRelations SpecErrors.
Open Scope N_scope.

(** where(c, v), having, on, Q, Not: a text or SQL object, and None, a text, a number, a
    boolean, a date, a list, tuple, range or generator, a relation or another SQL object. *)
Definition condition_item (p : val * val) : Prop :=
  (is_text (fst p) \/ is_sql_object (fst p)) /\
  (snd p = VNone \/ is_text (snd p) \/ is_number (snd p) \/ is_boolean (snd p) \/ is_temporal (snd p) \/
   (exists k l, In k [KList; KTuple; KRange; KGen] /\ snd p = VSeq k l) \/ is_sql_object (snd p)).
(** set(c, v), values(c, v): data that fits one cell. *)
Definition value_item (p : val * val) : Prop :=
  (is_text (fst p) \/ is_sql_object (fst p)) /\
  (snd p = VNone \/ is_text (snd p) \/ is_number (snd p) \/ is_boolean (snd p) \/ is_temporal (snd p) \/
   (exists b, snd p = VBytes b) \/ is_sql_object (snd p)).
(** from_(name, alias). *)
Definition table_item (p : val * val) : Prop :=
  (is_text (fst p) \/ is_sql_object (fst p)) /\ (alias_arg (snd p) \/ is_sql_object (snd p)).
(** order_by(name, direction). *)
Definition sort_item (up : str -> str) (p : val * val) : Prop :=
  (name_arg (fst p) \/ is_sql_object (fst p)) /\ exists d, direction up (snd p) d.

(** A comparison of two objects raised, and the call passed the exception on. *)
Definition comparison_raised (W : world) (o : outcome) : Prop := exists x y e, w_eq W x y = Err e /\ o = Err e.
(** The call succeeds exactly when [good] holds, otherwise it raises InvalidArgumentException. *)
Definition judged (W : world) (good : Prop) (o : outcome) : Prop :=
  (o = Ok tt /\ good) \/ (o = Err EInvalidArgument /\ ~ good) \/ comparison_raised W o.

(** [reads]: the items read from the arguments; arguments that cannot be read are invalid. *)
Definition judged_call (W : world) (reads : list (val * val) -> Prop) (P : val * val -> Prop) (o : outcome) : Prop :=
  (forall ps, reads ps -> judged W (Forall P ps) o) /\ ((forall ps, ~ reads ps) -> o = Err EInvalidArgument).
(** order_by, group_by: a column that Python calls equal to one already there only changes
    the direction of that one. A direction that is a number or an SQL object has no upper(). *)
Definition sort_taken (W : world) (p : val * val) : Prop :=
  (name_arg (fst p) \/ is_sql_object (fst p) \/ exists c, w_eq W c (fst p) = Ok true) /\
  exists d, direction (supper (w_env W)) (snd p) d.
Definition sort_judged (W : world) (ps : list (val * val)) (o : outcome) : Prop :=
  (o = Ok tt /\ Forall (sort_taken W) ps) \/
  ((o = Err EInvalidArgument \/ (o = Err EAttributeError /\ exists p, In p ps /\ ((exists n, snd p = VInt n) \/ is_sql_object (snd p)))) /\
   ~ Forall (sort_item (supper (w_env W))) ps) \/
  comparison_raised W o.

Definition item_sel (op : selop) : val * val -> Prop :=
  match op with
  | SColumns _ _ => column_ok
  | SFrom _ _ => table_item
  | SWhere _ _ | SHaving _ _ | SOn _ _ => condition_item
  | _ => fun _ => True
  end.
Definition item_upd (op : updop) : val * val -> Prop :=
  match op with UTable _ => table_item | USet _ _ => value_item | UWhere _ _ | UOn _ _ => condition_item | _ => fun _ => True end.
Definition item_del (op : delop) : val * val -> Prop :=
  match op with DDelete _ | DFrom _ _ => table_item | DWhere _ _ | DOn _ _ => condition_item | _ => fun _ => True end.
(** Calls of order_by and group_by have their own theorem. *)
Definition unsorted (op : selop) : Prop := match op with SGroupBy _ _ | SOrderBy _ _ => False | _ => True end.
(** on() follows a join; some argument of a condition or a value is not an SQL object. *)
Definition joined (ts : list (table val)) : Prop := exists ts0 n a js j, ts = ts0 ++ [MkTable n a (js ++ [j])].
Definition ready_sel (q : selq val) (op : selop) : Prop :=
  match op with SOn a _ => some_data a /\ joined (s_tabs q) | SWhere a _ | SHaving a _ => some_data a | _ => True end.
Definition ready_upd (q : updq val) (op : updop) : Prop :=
  match op with UOn a _ => some_data a /\ joined (u_tabs q) | UWhere a _ | USet a _ => some_data a | _ => True end.
Definition ready_del (q : delq val) (op : delop) : Prop :=
  match op with DOn a _ => some_data a /\ joined (d_refs q) | DWhere a _ => some_data a | _ => True end.

(** ** Order: what a call adds comes after what is there *)
(** Some of the elements of a list, in their order. *)
Inductive picked {A} : list A -> list A -> Prop :=
| picked_nil : picked [] []
| picked_skip : forall x l m, picked l m -> picked l (x :: m)
| picked_take : forall x l m, picked l m -> picked (x :: l) (x :: m).
(** The condition asked for by the item [p]: its column, and its value or the value of its
    relation; sequences are copied into a list. *)
Definition condition_for (p : val * val) (x : val) : Prop :=
  exists k rk w, x = VCond k (fst p) rk w /\
    (snd p = VRel rk w \/ snd p = w \/ exists sk l, snd p = VSeq sk l /\ w = VSeq KList l).
Definition value_for (p : val * val) (x : val) : Prop := x = VValue (fst p) (snd p).
Definition table_for (p : val * val) (t : table val) : Prop := t = MkTable (fst p) (snd p) [].
(** [after] is [before], then the parts of some of the items in their order. *)
Definition appended {A} (part : val * val -> A -> Prop) (ps : list (val * val)) (before after : list A) : Prop :=
  exists kept new, picked kept ps /\ Forall2 part kept new /\ after = before ++ new.
