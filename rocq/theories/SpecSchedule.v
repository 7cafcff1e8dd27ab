(** Vocabulary for the property about schedules: several queries of one program, and
    calls on them in any order. *)
From Verif Require Import Base NumFmt Value Backend Eq Render ParseArgs Build Queries Heap SpecHeap HeapBuild SpecShare.
Open Scope nat_scope.

(** Calls on queries, one after the other; the program goes on after an exception. *)
Fixpoint scheduled (W : world) (s : list (addr * hcall)) (h : heap) : heap * list (addr * outcome) :=
  match s with
  | [] => (h, [])
  | (q, c) :: s =>
      let (h1, o) := call W q c h in
      let (h2, os) := scheduled W s h1 in (h2, (q, o) :: os)
  end.
(** The calls on one query alone, on values. *)
Fixpoint by_itself (W : world) (v : val) (ds : list vcall) : val * list outcome :=
  match ds with
  | [] => (v, [])
  | d :: ds =>
      let (v1, o) := called W v d in
      let (v2, os) := by_itself W v1 ds in (v2, o :: os)
  end.
(** What belongs to query [q]. *)
Definition of_query {A} (q : addr) (l : list (addr * A)) : list A :=
  map snd (filter (fun x => Nat.eqb (fst x) q) l).

(** The calls do not touch object [p]: it is not one of the queries called, not a
    generator, and no call of join takes its entry. *)
Definition untouched (h : heap) (s : list (addr * hcall)) (p : addr) : Prop :=
  ~ In p (map fst s) /\ kind_of h p <> Some OGen /\ forall q c, In (q, c) s -> ~ loses h c p.
(** Nothing inside [q] but [q] itself is touched, nor is [q] inside itself. *)
Definition separate (h : heap) (s : list (addr * hcall)) (q : addr) : Prop :=
  unlooped h q /\ forall p, p <> q -> reach h (RPtr q) (RPtr p) -> untouched h s p.
(** Nothing inside [r] is touched, and [q] is not inside. *)
Definition quiet (h : heap) (s : list (addr * hcall)) (q : addr) (r : ref) : Prop :=
  forall p, reach h r (RPtr p) -> p <> q /\ untouched h s p.
(** The calls of a program. *)
Definition callable (H : list ref) (qs : list (addr * qkind)) (x : addr * hcall) : Prop :=
  In (fst x, of_kind (snd x)) qs /\ Forall (given H) (call_refs (snd x)).
