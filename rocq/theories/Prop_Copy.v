(** C46: copy() gives an independent copy. *)
From Verif Require Import Base NumFmt Value Backend Eq Render Heap SpecHeap PfHeapCopy PfHeapFrame HeapDemo Demo.
Open Scope nat_scope.

(** copy() of an object succeeds, unless a generator is stored somewhere inside:
    then it raises TypeError. *)
Theorem C46_copy_succeeds : forall h p, well_formed h -> p < List.length h ->
  ((exists h' p', deepcopy h p = Ok (h', p')) <-> ~ exists q l, reach h (RPtr p) (RPtr q) /\ get h q = Some (MkObj OGen l)) /\
  ((exists q l, reach h (RPtr p) (RPtr q) /\ get h q = Some (MkObj OGen l)) -> deepcopy h p = Err ETypeError).
Proof. exact copy_succeeds. Qed.
Print Assumptions C46_copy_succeeds.

(** The copy has the shape of the original, and whatever value the original
    stands for, the copy stands for it too, so it renders the same; nothing
    that was there before is changed by copying. *)
Theorem C46_copy_is_the_same : forall h p h' p', well_formed h -> p < List.length h -> deepcopy h p = Ok (h', p') ->
  alike h (RPtr p) h' (RPtr p') /\
  (forall n v, decode h n (RPtr p) = Ok v ->
     decode h' n (RPtr p') = Ok v /\ decode h' n (RPtr p) = Ok v) /\
  (forall E n v v', decode h n (RPtr p) = Ok v -> decode h' n (RPtr p') = Ok v' -> text E v' = text E v) /\
  (forall q, q < List.length h -> get h' q = get h q).
Proof. exact copy_same. Qed.
Print Assumptions C46_copy_is_the_same.

(** Later, one side works with whatever existed before the copy (the original,
    its subqueries, conditions it shares, ...), the other with the copy; they take
    turns in any way.  No step of either side changes anything the other can see. *)
Theorem C46_copy_is_independent : forall h p h1 p1 K KA KB h2,
  well_formed h -> p < List.length h -> deepcopy h p = Ok (h1, p1) ->
  (forall q, In (RPtr q) K -> q < List.length h) ->
  turns K [RPtr p1] h1 KA KB h2 ->
  (forall KA' h3, step KA h2 KA' h3 -> untouched KB h2 h3) /\
  (forall KB' h3, step KB h2 KB' h3 -> untouched KA h2 h3).
Proof. exact copy_independent. Qed.
Print Assumptions C46_copy_is_independent.

(** In particular whole programs: whatever is done with the old objects, the copy
    renders as before; whatever is done with the copy, every old object is as before. *)
Theorem C46_histories : forall h p h1 p1 K K2 h2,
  well_formed h -> p < List.length h -> deepcopy h p = Ok (h1, p1) ->
  (forall q, In (RPtr q) K -> q < List.length h) ->
  (run K h1 K2 h2 -> forall n v, decode h n (RPtr p) = Ok v -> decode h2 n (RPtr p1) = Ok v) /\
  (run [RPtr p1] h1 K2 h2 -> forall q n v, q < List.length h -> decode h n (RPtr q) = Ok v -> decode h2 n (RPtr q) = Ok v).
Proof. exact copy_histories. Qed.
Print Assumptions C46_histories.

(** Two selects share a Q object holding a condition on a V object (which refers
    to itself through its bound methods). *)
Example C46_example_heap : well_formed demo_heap /\ demo_at < List.length demo_heap.
Proof. split; [apply heap_ok_wf; vm_compute; reflexivity|vm_compute; repeat constructor]. Qed.
Example C46_example_value : (do v <- decode demo_heap 9 (RPtr demo_at); text (demo BSql) v) =
  Ok (lit "SELECT * FROM ""t"" WHERE ""name"" = 'x y' LIMIT 3").
Proof. vm_compute. reflexivity. Qed.
(** After s1.copy(), q.where(age=1) changes s1 and not the copy; it is a program in
    the sense of the theorems. *)
Example C46_example_program : forall h, get h q_parts = get demo_heap q_parts ->
  (exists a l, get h (S q_parts) = Some (MkObj (OInst CConditions) l) /\ In (a, RPtr q_parts) l) ->
  exists K, run [snd d_q; snd d_c] h K (q_where h).
Proof. exact q_where_run. Qed.
Example C46_example_shared :
  (do (h1, p1) <- deepcopy demo_heap demo_at;
   do v <- decode (q_where h1) 9 (RPtr demo_at); do original <- text (demo BSql) v;
   do v <- decode (q_where h1) 9 (RPtr p1); do copied <- text (demo BSql) v;
   Ok (original, copied)) =
  Ok (lit "SELECT * FROM ""t"" WHERE ""name"" = 'x y' AND ""age"" = 1 LIMIT 3",
      lit "SELECT * FROM ""t"" WHERE ""name"" = 'x y' LIMIT 3").
Proof. vm_compute. reflexivity. Qed.
(** A query with a generator inside cannot be copied. *)
Example C46_example_generator : deepcopy [MkObj OGen []; MkObj (OInst CSqlValue) [(LAttr "value", RPtr 0)]] 1 = Err ETypeError.
Proof. reflexivity. Qed.
