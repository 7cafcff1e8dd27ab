(** C23 and C24 for every history and all arguments, SQL objects included.
    Specification: SpecFirst.v. *)
From Verif Require Import Base NumFmt Value Backend Eq Render ParseArgs Build Queries History Demo
  SpecArgs SpecRead SpecHistory SpecLists SpecFirst PfLists PfFirst.
Open Scope N_scope.

(** C23.  Any calls, successful or not, under any sequence of backends, with any
    arguments (keyword names are distinct in Python): the list of columns has the distinct requested items in order of first
    request. *)
Theorem C23_columns : forall E H, (forall b a k, In (b, SColumns a k) H -> NoDup (map fst k)) ->
  exists items, history_takes taken_columns H (outcomes sel_step empty_select (program E H)) items /\
    distinct_first (fun b => pair_eq (py_eq (with_be E b))) items (s_cols (calls sel_step empty_select (program E H))) /\
    Forall (fun p => named (fst p) /\ aliased (snd p)) (s_cols (calls sel_step empty_select (program E H))).
Proof. exact columns_taken. Qed.
Print Assumptions C23_columns.
(** A text after the aggregate with the same text is dropped; the same column with an
    alias is another one; the float fails and what came before it stays. *)
Definition C23_objects : list (backend * selop) :=
  [(BMySql, SColumns [VAgg FCount false (vs "*"); vs "a"] []);
   (BMySql, SColumns [vs "COUNT(*)"; VSeq KTuple [vs "a"; vs "x"]; VFloat (NFin false 1 2); vs "z"] []);
   (BPostgres, SColumns [VAgg FCount false (vs "*"); vs "b"] [])].
Lemma C23_keys : forall b a k, In (b, SColumns a k) C23_objects -> NoDup (map fst k).
Proof. intros b a k I. repeat (destruct I as [I|I]; [injection I as <- <- <-; constructor|]). destruct I. Qed.
Example C23_objects_example :
  s_cols (calls sel_step empty_select (program (demo BSql) C23_objects)) =
    [(VAgg FCount false (vs "*"), VNone); (vs "a", VNone); (vs "a", vs "x"); (vs "b", VNone)] /\
  outcomes sel_step empty_select (program (demo BSql) C23_objects) = [Ok tt; Err EInvalidArgument; Ok tt].
Proof. split; vm_compute; reflexivity. Qed.

(** C24. *)
Theorem C24_order_by : forall E H, (forall b a k, In (b, SOrderBy a k) H -> NoDup (map fst k)) ->
  exists items, history_takes taken_order H (outcomes sel_step empty_select (program E H)) items /\
    last_wins (fun b => py_eq (with_be E b)) (direction (supper E)) items (s_order (calls sel_step empty_select (program E H))) /\
    Forall (fun p => named (fst p)) (s_order (calls sel_step empty_select (program E H))).
Proof. exact order_taken. Qed.
Print Assumptions C24_order_by.
Theorem C24_group_by : forall E H, (forall b a k, In (b, SGroupBy a k) H -> NoDup (map fst k)) ->
  exists items, history_takes taken_group H (outcomes sel_step empty_select (program E H)) items /\
    last_wins (fun b => py_eq (with_be E b)) (direction (supper E)) items (s_group (calls sel_step empty_select (program E H))) /\
    Forall (fun p => named (fst p)) (s_group (calls sel_step empty_select (program E H))).
Proof. exact group_taken. Qed.
Print Assumptions C24_group_by.
(** Under one backend no two columns of the clause are equal. *)
Theorem C24_no_duplicates : forall E b H, (forall bo, In bo H -> fst bo = b) ->
  (forall b a k, In (b, SOrderBy a k) H -> NoDup (map fst k)) ->
  ForallOrdPairs (fun p q => py_eq (with_be E b) (fst p) (fst q) = Ok false) (s_order (calls sel_step empty_select (program E H))).
Proof. exact order_distinct. Qed.
Print Assumptions C24_no_duplicates.
Theorem C24_group_no_duplicates : forall E b H, (forall bo, In bo H -> fst bo = b) ->
  (forall b a k, In (b, SGroupBy a k) H -> NoDup (map fst k)) ->
  ForallOrdPairs (fun p q => py_eq (with_be E b) (fst p) (fst q) = Ok false) (s_group (calls sel_step empty_select (program E H))).
Proof. exact group_distinct. Qed.
Print Assumptions C24_group_no_duplicates.
(** The text "COUNT(*)" names the aggregate asked for before, and True the position 1. *)
Definition C24_objects : list (backend * selop) :=
  [(BMySql, SOrderBy [VAgg FCount false (vs "*"); VInt 1] []);
   (BMySql, SOrderBy [VSeq KTuple [vs "COUNT(*)"; vs "desc"]; VSeq KTuple [VBool true; vs "desc"]; VBool false; vs "z"] [])].
Lemma C24_keys : forall b a k, In (b, SOrderBy a k) C24_objects -> NoDup (map fst k).
Proof. intros b a k I. repeat (destruct I as [I|I]; [injection I as <- <- <-; constructor|]). destruct I. Qed.
Example C24_objects_example :
  s_order (calls sel_step empty_select (program (demo BSql) C24_objects)) = [(VAgg FCount false (vs "*"), Desc); (VInt 1, Desc)] /\
  outcomes sel_step empty_select (program (demo BSql) C24_objects) = [Ok tt; Err EInvalidArgument].
Proof. split; vm_compute; reflexivity. Qed.
