(** C32, C33: SET and VALUES with any data, numbers of all types included. *)
From Coq Require Import Permutation.
From Verif Require Import Base NumFmt Value Backend Eq Render ParseArgs Build Queries History Demo SpecArgs SpecLists SpecSet PfSet.
Open Scope string_scope.
Open Scope list_scope.
Open Scope N_scope.

(** What the SET list contains after any history of set() calls with any data values, and
    which value it leaves in each column: the one given last among those that no equal value
    was given before.  If no value of the column comes back, this is the last one, or an
    earlier one equal to it.  The backend may change between the calls.  SQL objects as
    values are the next theorems. *)
Theorem C33_set_any_partial : forall E H asked, set_any_asked (map snd H) asked ->
  exists out, u_vals (calls upd_step empty_update (program E H)) = map (fun p => VValue (fst p) (snd p)) out /\
    without_repeats same_value (List.concat asked) out /\
    (forall c v, assigned out c v <-> newest_value same_value (List.concat asked) c v) /\
    forall c v, never_returns same_value (List.concat asked) c -> assigned (List.concat asked) c v -> exists w, assigned out c w /\ (w = v \/ same_value w v).
Proof. exact set_any. Qed.
Print Assumptions C33_set_any_partial.
(** The same for a row of an INSERT. *)
Theorem C32_row_any_partial : forall E q a k r q', keys_ok a k -> (forall x, a = [x] -> is_sql x = false) -> set_any_call a k r ->
  ins_step (pure_world E) q (IValues a k) = (q', Ok tt) ->
  exists out, i_rows q' = i_rows q ++ [map (fun p => VValue (fst p) (snd p)) out] /\ without_repeats same_value r out /\
    (forall c v, assigned out c v <-> newest_value same_value r c v) /\
    forall c v, never_returns same_value r c -> assigned r c v -> exists w, assigned out c w /\ (w = v \/ same_value w v).
Proof. exact row_any. Qed.
Print Assumptions C32_row_any_partial.
(** The same with SQL objects among the values, for any values that == can be relied on for,
    while the backend stays the same. *)
Theorem C33_set_objects_partial : forall E vals ops asked, comparable E vals -> set_object_asked ops asked -> Forall (fun p => vals (snd p)) (List.concat asked) ->
  exists out, u_vals (calls upd_step empty_update (map (fun op => (pure_world E, op)) ops)) = map (fun p => VValue (fst p) (snd p)) out /\
    without_repeats (equal E) (List.concat asked) out /\
    (forall c v, assigned out c v <-> newest_value (equal E) (List.concat asked) c v) /\
    forall c v, never_returns (equal E) (List.concat asked) c -> assigned (List.concat asked) c v -> exists w, assigned out c w /\ (w = v \/ equal E w v).
Proof. exact set_objects. Qed.
Print Assumptions C33_set_objects_partial.
Theorem C32_row_objects_partial : forall E vals q a k r q', comparable E vals -> keys_ok a k -> (forall x, a = [x] -> is_sql x = false) -> set_object_call a k r ->
  Forall (fun p => vals (snd p)) r -> ins_step (pure_world E) q (IValues a k) = (q', Ok tt) ->
  exists out, i_rows q' = i_rows q ++ [map (fun p => VValue (fst p) (snd p)) out] /\ without_repeats (equal E) r out /\
    (forall c v, assigned out c v <-> newest_value (equal E) r c v) /\
    forall c v, never_returns (equal E) r c -> assigned r c v -> exists w, assigned out c w /\ (w = v \/ equal E w v).
Proof. exact row_objects. Qed.
Print Assumptions C32_row_objects_partial.
(** == can be relied on for data and the objects that are compared by their text: it holds
    for equal data, and between objects, and objects and strings, of the same text. *)
Theorem C33_comparable : forall E, comparable E (sendable E) /\
  forall v w, sendable E v -> sendable E w -> (equal E v w <-> same_value v w \/ exists t, reads E v t /\ reads E w t).
Proof. exact objects_comparable. Qed.
Print Assumptions C33_comparable.

(** ** Examples *)
Definition half : val := VFloat (NFin false 1 2).
Lemma set_one : forall v, any_value v -> is_sql v = false -> set_any_call [] [(lit "a", v)] [(vs "a", v)].
Proof.
  intros v V S. eapply sa_items.
  - apply (pa_items [] [] [(lit "a", v)] [(vs "a", v)]); [discriminate|intros; discriminate|constructor|]. split; [apply Permutation_refl|repeat constructor].
  - constructor; [split; [reflexivity|exact S]|constructor].
  - apply acc_ok; [split; [eexists; reflexivity|exact V]|constructor].
Qed.
Definition numbers : list (backend * updop) :=
  [(BPostgres, UTable (vs "t")); (BPostgres, UAllow); (BPostgres, USet [] [(lit "a", VInt 1)]); (BPostgres, USet [] [(lit "a", half)]); (BPostgres, USet [] [(lit "a", VDec (NFin false 2 4))])].
Example C33_any_example :
  set_any_asked (map snd numbers) [[]; []; [(vs "a", VInt 1)]; [(vs "a", half)]; [(vs "a", VDec (NFin false 2 4))]] /\
  same_value half (VDec (NFin false 2 4)) /\
  text (demo BPostgres) (VUpdate (calls upd_step empty_update (program (demo BPostgres) numbers))) = Ok (lit "UPDATE ""t"" SET ""a"" = 1, ""a"" = 0.50000").
Proof.
  split; [|split; [left; do 4 eexists; split; [constructor|split; [constructor|reflexivity]]|vm_compute; reflexivity]].
  assert (K : forall v, keys_ok [] [(lit "a", v)]) by (intros v; split; [repeat constructor; intros []|intros; discriminate]).
  assert (X : forall v, any_value v -> is_sql v = false -> keys_ok [] [(lit "a", v)] /\ (forall x, [] = [x] -> is_sql x = false) /\ set_any_call [] [(lit "a", v)] [(vs "a", v)]).
  { intros v V S. split; [apply K|]. split; [discriminate|]. now apply set_one. }
  constructor; [reflexivity|]. constructor; [reflexivity|]. constructor; [apply X; [right; right; left; eexists; reflexivity|reflexivity]|].
  constructor; [apply X; [do 7 right; left; eexists; reflexivity|reflexivity]|]. constructor; [apply X; [do 8 right; eexists; reflexivity|reflexivity]|]. constructor.
Qed.
(** After set(a=1), set(a=True) is lost: PostgreSQL is sent the number. *)
Example C33_true_is_one :
  text (demo BPostgres) (VUpdate (calls upd_step empty_update (program (demo BPostgres)
    [(BPostgres, UTable (vs "t")); (BPostgres, UAllow); (BPostgres, USet [] [(lit "a", VInt 1)]); (BPostgres, USet [] [(lit "a", VBool true)])])))
  = Ok (lit "UPDATE ""t"" SET ""a"" = 1") /\ same_value (VInt 1) (VBool true).
Proof. split; [vm_compute; reflexivity|]. left. do 4 eexists. split; [constructor|split; [apply am_bool|reflexivity]]. Qed.
(** A custom SQL value, a number, and the same custom SQL again: the number stays.  A string
    with the text of the custom SQL is lost as well. *)
Definition objects : list updop :=
  [UTable (vs "t"); UAllow; USet [] [(lit "a", VCustom (lit "NOW()"))]; USet [] [(lit "a", VInt 1)]; USet [] [(lit "a", VCustom (lit "NOW()"))]; USet [] [(lit "b", VCustom (lit "x"))]; USet [] [(lit "b", vs "x")]].
Definition objects_asked : list (list (val * val)) :=
  [[]; []; [(vs "a", VCustom (lit "NOW()"))]; [(vs "a", VInt 1)]; [(vs "a", VCustom (lit "NOW()"))]; [(vs "b", VCustom (lit "x"))]; [(vs "b", vs "x")]].
Example C33_objects_example : set_object_asked objects objects_asked /\ Forall (fun p => sendable (demo BSql) (snd p)) (List.concat objects_asked) /\
  equal (demo BSql) (VCustom (lit "x")) (vs "x") /\
  text (demo BSql) (VUpdate (calls upd_step empty_update (map (fun op => (demoW BSql, op)) objects))) = Ok (lit "UPDATE ""t"" SET ""a"" = NOW(), ""a"" = 1, ""b"" = x").
Proof.
  split.
  - assert (X : forall c v, any_value v \/ is_sql v = true -> keys_ok [] [(c, v)] /\ (forall x, [] = [x] -> is_sql x = false) /\ set_object_call [] [(c, v)] [(VStr c, v)]).
    { intros c v V. split; [split; [repeat constructor; intros []|intros; discriminate]|]. split; [discriminate|]. eapply so_items.
      - apply (pa_items [] [] [(c, v)] [(VStr c, v)]); [discriminate|intros; discriminate|constructor|]. split; [apply Permutation_refl|repeat constructor].
      - constructor; [reflexivity|constructor].
      - apply acc_ok; [split; [eexists; reflexivity|exact V]|constructor]. }
    unfold objects, objects_asked. constructor; [reflexivity|]. constructor; [reflexivity|]. constructor; [apply X; now right|]. constructor; [apply X; left; right; right; left; eexists; reflexivity|].
    constructor; [apply X; now right|]. constructor; [apply X; now right|]. constructor; [apply X; left; right; left; eexists; reflexivity|]. constructor.
  - split; [|split; [vm_compute; reflexivity|vm_compute; reflexivity]].
    assert (C : forall s, sendable (demo BSql) (VCustom s)) by (intros s; right; exists s; split; [exact Logic.I|reflexivity]).
    cbn [objects_asked List.concat app].
    constructor; [apply C|]. constructor; [left; right; right; left; eexists; reflexivity|]. constructor; [apply C|]. constructor; [apply C|]. constructor; [left; right; left; eexists; reflexivity|]. constructor.
Qed.
