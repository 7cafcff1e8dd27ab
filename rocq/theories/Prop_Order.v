(** Order of SQL objects, and dictionaries with SQL objects as keys: C72, C73.
    Specification: SpecOrder.v, SpecArgs.v. *)
From Coq Require Import Permutation Sorted.
From Verif Require Import Base NumFmt Value Eq Render ParseArgs Build Queries History Order Demo SpecArgs SpecOrder PfOrder.
Open Scope N_scope.

(** C72.  Objects compared by text, and strings, are ordered as their texts. *)
Theorem C72_order : forall E a b s t, compared_by_text a -> compared_by_text b -> is_sql a = true \/ is_sql b = true ->
  text_of (text E) a s -> text_of (text E) b t ->
  exists lt gt le ge eq, py_cmp E OLt a b = Ok lt /\ py_cmp E OGt a b = Ok gt /\ py_cmp E OLe a b = Ok le /\ py_cmp E OGe a b = Ok ge /\
    py_eq E a b = Ok eq /\
    (lt = true <-> before s t) /\ (gt = true <-> before t s) /\ (le = true <-> before s t \/ s = t) /\ (ge = true <-> before t s \/ s = t) /\
    (eq = true <-> s = t).
Proof. exact order_by_text. Qed.
Print Assumptions C72_order.
(** C72.  Other data cannot be compared with an object. *)
Theorem C72_incomparable : forall E o a v, is_sql a = true -> is_sql v = false -> (forall s, v <> VStr s) -> (forall i, v <> VOther i) ->
  py_cmp E o a v = Err ETypeError /\ py_cmp E o v a = Err ETypeError.
Proof. exact data_incomparable. Qed.
Print Assumptions C72_incomparable.
(** C73.  A dictionary is read as the tuples of its entries, in the order of the texts of the keys. *)
Theorem C73_dict_order : forall W items k, items <> [] -> text_keys (w_str W) items ->
  exists out, in_text_order (w_str W) items out /\
  (forall q c, In c [SColumns; SFrom; SGroupBy; SOrderBy] -> sel_step W q (c [VDict items] k) = sel_step W q (c (tuples out) [])) /\
  (forall q c, In c [SOn; SWhere; SHaving] -> sel_step W q (c [VDict items] k) = sel_step W q (c [VSeq KList (tuples out)] [])) /\
  (forall q, ins_step W q (IValues [VDict items] k) = ins_step W q (IValues [VSeq KList (tuples out)] [])) /\
  (forall q c, In c [USet; UWhere; UOn] -> upd_step W q (c [VDict items] k) = upd_step W q (c [VSeq KList (tuples out)] [])) /\
  (forall q, del_step W q (DFrom [VDict items] k) = del_step W q (DFrom (tuples out) [])) /\
  (forall q c, In c [DWhere; DOn] -> del_step W q (c [VDict items] k) = del_step W q (c [VSeq KList (tuples out)] [])) /\
  mk_Q W [VDict items] k = mk_Q W [VSeq KList (tuples out)] [] /\ mk_Not W [VDict items] k = mk_Not W [VSeq KList (tuples out)] [].
Proof. exact dict_as_tuples. Qed.
Print Assumptions C73_dict_order.
(** C73.  The order of the entries does not matter. *)
Theorem C73_dict_reordered : forall W i i' k, text_keys (w_str W) i -> Permutation i i' ->
  (forall q c, In c [SColumns; SFrom; SOn; SWhere; SHaving; SGroupBy; SOrderBy] -> sel_step W q (c [VDict i] k) = sel_step W q (c [VDict i'] k)) /\
  (forall q, ins_step W q (IValues [VDict i] k) = ins_step W q (IValues [VDict i'] k)) /\
  (forall q c, In c [USet; UWhere; UOn] -> upd_step W q (c [VDict i] k) = upd_step W q (c [VDict i'] k)) /\
  (forall q c, In c [DFrom; DWhere; DOn] -> del_step W q (c [VDict i] k) = del_step W q (c [VDict i'] k)) /\
  mk_Q W [VDict i] k = mk_Q W [VDict i'] k /\ mk_Not W [VDict i] k = mk_Not W [VDict i'] k.
Proof. exact text_keys_irrelevant. Qed.
Print Assumptions C73_dict_reordered.
(** C73.  Texts and numbers together are refused and nothing changes. *)
Theorem C73_mixed_refused : forall W (items : list (val * val)) k keys s z, Forall2 (key_of (w_str W)) (map fst items) keys -> NoDup keys ->
  In (inl s) keys -> In (inr z) keys ->
  (forall q c, In c [SColumns; SFrom; SWhere; SHaving; SGroupBy; SOrderBy] -> sel_step W q (c [VDict items] k) = (q, Err ETypeError)) /\
  (forall q, ins_step W q (IValues [VDict items] k) = (q, Err ETypeError)) /\
  (forall q c, In c [USet; UWhere] -> upd_step W q (c [VDict items] k) = (q, Err ETypeError)) /\
  (forall q c, In c [DFrom; DWhere] -> del_step W q (c [VDict items] k) = (q, Err ETypeError)) /\
  mk_Q W [VDict items] k = Err ETypeError /\ mk_Not W [VDict items] k = Err ETypeError.
Proof. exact mixed_refused. Qed.
Print Assumptions C73_mixed_refused.

(** C72.  False for queries: they are ordered by text but equal only part by part, so of two
    queries with the same text each can be greater than the other. *)
Theorem C72_queries_refuted : exists E a b, text E a = text E b /\ is_ok (text E a) = true /\
  py_eq E a b = Ok false /\ py_cmp E OLt a b = Ok false /\ py_cmp E OLt b a = Ok false /\
  py_cmp E OGt a b = Ok true /\ py_cmp E OGt b a = Ok true /\ py_cmp E OLe a b = Ok false /\ py_cmp E OGe a b = Ok true.
Proof.
  exists (demo BMySql), (VSelect (fst (sel_step (demoW BMySql) empty_select (SColumns [vs "a"] [])))),
    (VSelect (fst (sel_step (demoW BMySql) empty_select (SColumns [VCustom (lit "`a`")] [])))).
  vm_compute. repeat split.
Qed.
Print Assumptions C72_queries_refuted.

(** ** Examples *)
(** 'id' and count('id') *)
Definition count72 : val := VAgg FCount false (VStr (lit "id")).
Example C72_example : compared_by_text (vs "id") /\ compared_by_text count72 /\
  text_of (text (demo BSql)) (vs "id") (lit "id") /\ text_of (text (demo BSql)) count72 (lit "COUNT(""id"")") /\
  py_cmp (demo BSql) OLt count72 (vs "id") = Ok true /\ py_cmp (demo BSql) OLt (vs "id") count72 = Ok false /\
  py_cmp (demo BSql) OGe (vs "id") count72 = Ok true /\ py_cmp (demo BSql) OLt count72 (VInt 3) = Err ETypeError.
Proof. split; [exact Logic.I|]. split; [exact Logic.I|]. split; [now left|]. split; [right; split; vm_compute; reflexivity|]. vm_compute. repeat split. Qed.
(** {'id': 'a', count('id'): 'b'} *)
Definition items73 : list (val * val) := [(vs "id", vs "a"); (count72, vs "b")].
Example C73_ok : text_keys (w_str (demoW BSql)) items73 /\
  Forall2 (key_of (w_str (demoW BSql))) (map fst (items73 ++ [(VInt 1, vs "c")])) [inl (lit "id"); inl (lit "COUNT(""id"")"); inr 1%Z] /\
  NoDup [@inl str Z (lit "id"); inl (lit "COUNT(""id"")"); inr 1%Z].
Proof.
  assert (T : text_of (w_str (demoW BSql)) count72 (lit "COUNT(""id"")")) by (right; split; vm_compute; reflexivity).
  split; [|split].
  - exists [lit "id"; lit "COUNT(""id"")"]. split.
    + cbn [items73 map fst]. constructor; [now left|]. constructor; [exact T|constructor].
    + repeat constructor; cbn; intuition discriminate.
  - cbn [items73 app map fst]. constructor; [now left|]. constructor; [exact T|]. constructor; [reflexivity|constructor].
  - repeat constructor; cbn; intuition discriminate.
Qed.
Example C73_example :
  text (demo BSql) (VSelect (fst (sel_step (demoW BSql) empty_select (SColumns [VDict items73] []))))
    = Ok (lit "SELECT COUNT(""id"") AS ""b"", ""id"" AS ""a""") /\
  sel_step (demoW BSql) empty_select (SColumns [VDict (items73 ++ [(VInt 1, vs "c")])] []) = (empty_select, Err ETypeError).
Proof. split; vm_compute; reflexivity. Qed.
