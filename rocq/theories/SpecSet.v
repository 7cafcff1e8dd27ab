(** Vocabulary for SET and VALUES with any data: Python's numbers are equal across their
    types (1 == True == 1.0 == Decimal('1')), and a NaN equals nothing.  SQL objects are
    compared as Python compares them. *)
From Verif Require Import Base NumFmt Value Eq Render Queries SpecArgs SpecLists.
Open Scope Z_scope.

(** The value is the number z/d. *)
Inductive amount : val -> Z -> positive -> Prop :=
| am_bool : forall b : bool, amount (VBool b) (if b then 1 else 0) 1
| am_int : forall z, amount (VInt z) z 1
| am_float : forall (s : bool) n d, amount (VFloat (NFin s n d)) (if s then - Z.of_N n else Z.of_N n) d
| am_dec : forall (s : bool) n d, amount (VDec (NFin s n d)) (if s then - Z.of_N n else Z.of_N n) d.
Inductive infinite : val -> bool -> Prop :=
| inf_float : forall s, infinite (VFloat (NInf s)) s
| inf_dec : forall s, infinite (VDec (NInf s)) s.
Definition same_value (v w : val) : Prop :=
  (exists z d z' d', amount v z d /\ amount w z' d' /\ z * Zpos d' = z' * Zpos d) \/
  (exists s, infinite v s /\ infinite w s) \/
  (v = w /\ (v = VNone \/ (exists s, v = VStr s) \/ (exists b, v = VBytes b) \/ (exists d, v = VDate d) \/ exists d t, v = VDatetime d t)).

(** Any data set() and values() accept; SQL objects are left out. *)
Definition any_value (v : val) : Prop :=
  v = VNone \/ (exists s, v = VStr s) \/ (exists n, v = VInt n) \/ (exists b, v = VBytes b) \/
  (exists d, v = VDate d) \/ (exists d t, v = VDatetime d t) \/ (exists b, v = VBool b) \/ (exists x, v = VFloat x) \/ exists x, v = VDec x.
Definition any_item (p : val * val) : Prop := (exists c, fst p = VStr c) /\ any_value (snd p).
Definition no_objects (p : val * val) : Prop := is_sql (fst p) = false /\ is_sql (snd p) = false.
Inductive set_any_call (a : list val) (k : list (str * val)) : list (val * val) -> Prop :=
| sa_unreadable : (forall ps, ~ pair_args a k ps) -> set_any_call a k []
| sa_items : forall ps r, pair_args a k ps -> Forall no_objects ps -> accepted any_item ps r -> set_any_call a k r.
Definition set_any_asked (ops : list updop) (asked : list (list (val * val))) : Prop :=
  Forall2 (fun op r => match op with
                       | USet a k => keys_ok a k /\ (forall x, a = [x] -> is_sql x = false) /\ set_any_call a k r
                       | _ => r = [] end) ops asked.

(** Below [same] says which values count as the same. *)
Definition same_item (same : val -> val -> Prop) (p q : val * val) : Prop := fst p = fst q /\ same (snd p) (snd q).
(** The assignments without those equal to an earlier one. *)
Inductive without_repeats (same : val -> val -> Prop) : list (val * val) -> list (val * val) -> Prop :=
| wr_nil : without_repeats same [] []
| wr_new : forall l out p, without_repeats same l out -> (forall y, In y l -> ~ same_item same y p) -> without_repeats same (l ++ [p]) (out ++ [p])
| wr_again : forall l out p, without_repeats same l out -> (exists y, In y l /\ same_item same y p) -> without_repeats same (l ++ [p]) out.
(** The value of column [c] that was the last to be given when no equal one was given before. *)
Definition newest_value (same : val -> val -> Prop) (l : list (val * val)) (c v : val) : Prop :=
  exists pre post, l = pre ++ (c, v) :: post /\ (forall w, In (c, w) pre -> ~ same w v) /\
    forall w, In (c, w) post -> exists u, In (c, u) (pre ++ [(c, v)]) /\ same u w.
(** No assignment of column [c] comes back after a different one. *)
Definition never_returns (same : val -> val -> Prop) (l : list (val * val)) (c : val) : Prop :=
  forall u v pre mid post, l = pre ++ (c, u) :: mid ++ (c, v) :: post -> same u v -> forall w, In (c, w) mid -> same u w.

(** SQL objects as values.  [equal]: Python's ==, while one backend is configured. *)
Definition equal (E : env) (v w : val) : Prop := py_eq E v w = Ok true.
(** Among these values == never raises, and is symmetric and transitive. *)
Definition comparable (E : env) (vals : val -> Prop) : Prop :=
  (forall v w, vals v -> vals w -> exists b, py_eq E v w = Ok b) /\
  (forall v w, vals v -> vals w -> equal E v w -> equal E w v) /\
  (forall u v w, vals u -> vals v -> vals w -> equal E u v -> equal E v w -> equal E u w).
(** Any data or SQL object, for a column given by its name. *)
Definition object_item (p : val * val) : Prop := (exists c, fst p = VStr c) /\ (any_value (snd p) \/ is_sql (snd p) = true).
Inductive set_object_call (a : list val) (k : list (str * val)) : list (val * val) -> Prop :=
| so_unreadable : (forall ps, ~ pair_args a k ps) -> set_object_call a k []
| so_items : forall ps r, pair_args a k ps -> Forall (fun p => is_sql (fst p) = false) ps -> accepted object_item ps r -> set_object_call a k r.
Definition set_object_asked (ops : list updop) (asked : list (list (val * val))) : Prop :=
  Forall2 (fun op r => match op with
                       | USet a k => keys_ok a k /\ (forall x, a = [x] -> is_sql x = false) /\ set_object_call a k r
                       | _ => r = [] end) ops asked.
(** C, V, R, the functions, Not, Exists and combined Q objects. *)
Definition by_text (v : val) : Prop :=
  match v with
  | VCustom _ | VSqlV _ | VSqlR _ | VCoC _ _ _ | VNot _ | VExists _ | VAgg _ _ _ | VConcat _ | VGroupConcat _ _ _ | VConvert _ _ => True
  | _ => False
  end.
(** The text a str or such an object is compared by. *)
Definition reads (E : env) (v : val) (t : str) : Prop := v = VStr t \/ (by_text v /\ text E v = Ok t).
(** Data, and such objects when they can be printed. *)
Definition sendable (E : env) (v : val) : Prop := any_value v \/ exists t, by_text v /\ text E v = Ok t.
