(** Vocabulary for the property about printing in programs. *)
From Verif Require Import Base NumFmt Value Backend Eq Render ParseArgs Build Queries Heap SpecHeap HeapBuild SpecShare.
Open Scope nat_scope.

(** What str() of queries of the program does to the objects: the joins of the tables of
    those queries, and of queries of the program inside them, are merged, one table after
    the other. *)
Definition printing (qs : list (addr * qkind)) (s : list (addr * hcall)) : Prop :=
  Forall (fun x => exists k refs n, snd x = HShow k refs n /\ In (fst x, k) qs) s.
(** None of the queries printed is inside itself. *)
Definition sound (h : heap) (s : list (addr * hcall)) : Prop := forall q, In q (map fst s) -> unlooped h q.
