(** Properties of the clauses of the statements: C23, C24, C31-C34, C38, C49, C52-C54.
    Specifications: SpecArgs.v, SpecHistory.v, SpecClauses.v, SpecLists.v. *)
From Coq Require Import Permutation Sorted.
From Verif Require Import Base NumFmt Value Backend Eq Render ParseArgs Build Queries History Demo
  SpecRead SpecRef SpecArgs SpecHistory SpecClauses SpecLists PfClauses PfStatements PfLists PfClauseText.
Open Scope N_scope.

(** C23.  Any calls, under any sequence of backends; [asked] is what each columns()
    call asks for.  The items are data (for SQL objects, compared by text, see
    C23_columns in Prop_First.v). *)
Theorem C23_columns_data : forall E H asked, columns_asked (map snd H) asked -> data_items (List.concat asked) ->
  first_occurrences (List.concat asked) (s_cols (calls sel_step empty_select (program E H))).
Proof. intros E H asked A D. exact (proj2 (columns_history E H asked A D)). Qed.
Print Assumptions C23_columns_data.
(** The text: * iff the list is empty (columns_text). *)
Theorem C23_columns_text : forall E H t, only CnColumns H -> let q := calls sel_step empty_select H in
  text E (VSelect q) = Ok t <-> exists u, columns_text E (s_cols q) u /\ trimmed (words [lit "SELECT"; u]) t.
Proof. exact columns_only. Qed.
Print Assumptions C23_columns_text.
(** Whatever the arguments: no two columns of the list are equal for Python. *)
Theorem C23_no_duplicates : forall E H, (forall wo, In wo H -> fst wo = pure_world E) ->
  ForallOrdPairs (fun p q => pair_eq (py_eq E) p q = Ok false) (s_cols (calls sel_step empty_select H)).
Proof. exact columns_distinct. Qed.
Print Assumptions C23_no_duplicates.
Definition C23_history : list (backend * selop) :=
  [(BMySql, SColumns [vs "a"; VSeq KTuple [vs "b"; vs "x"]] []); (BPostgres, SWhere [vs "c"; VInt 1] []);
   (BPostgres, SColumns [VInt 1; vs "a"; VFloat (NFin false 1 2); vs "z"] [])].
Example C23_example :
  columns_asked (map snd C23_history) [[(vs "a", VNone); (vs "b", vs "x")]; []; [(VInt 1, VNone); (vs "a", VNone)]] /\
  s_cols (calls sel_step empty_select (program (demo BSql) C23_history)) = [(vs "a", VNone); (vs "b", vs "x"); (VInt 1, VNone)].
Proof.
  assert (SC : forall v, match v with VStr _ | VInt _ | VFloat _ => True | _ => False end -> alias_item v (v, VNone)).
  { intros v Hv. right. split; [|reflexivity]. intros l [Q|Q]; subst v; destruct Hv. }
  split; [|vm_compute; reflexivity]. repeat constructor; try (intros; discriminate).
  - eapply req_items.
    + apply (aa_items _ [(vs "a", VNone); (vs "b", vs "x")] _ []); [intros; discriminate| |split; constructor].
      constructor; [apply SC; exact I|]. constructor; [|constructor]. left. exists [vs "b"; vs "x"]. split; [now right|constructor].
    + apply acc_ok; [split; left; [left; eexists; reflexivity|now right]|].
      apply acc_ok; [split; left; [left; eexists; reflexivity|left; eexists; reflexivity]|]. constructor.
  - eapply req_items.
    + apply (aa_items _ [(VInt 1, VNone); (vs "a", VNone); (VFloat (NFin false 1 2), VNone); (vs "z", VNone)] _ []); [intros; discriminate| |split; constructor].
      repeat (constructor; [apply SC; exact I|]). constructor.
    + apply acc_ok; [split; left; [right; eexists; reflexivity|now right]|]. apply acc_ok; [split; left; [left; eexists; reflexivity|now right]|].
      apply acc_bad. intros [[[[s Q]|[n Q]]|Q] _]; discriminate.
Qed.

(** C24. *)
Theorem C24_order_by_data : forall E H asked, order_asked (supper E) (map snd H) asked ->
  ordered_list (supper E) (List.concat asked) (s_order (calls sel_step empty_select (program E H))).
Proof. intros E H asked A. exact (proj2 (order_history E H asked A)). Qed.
Print Assumptions C24_order_by_data.
Theorem C24_group_by_data : forall E H asked, group_asked (supper E) (map snd H) asked ->
  ordered_list (supper E) (List.concat asked) (s_group (calls sel_step empty_select (program E H))).
Proof. intros E H asked A. exact (proj2 (group_history E H asked A)). Qed.
Print Assumptions C24_group_by_data.
Theorem C24_order_text : forall E H t, only CnOrder H -> let q := calls sel_step empty_select H in
  text E (VSelect q) = Ok t <->
  exists cl, clause (lit "ORDER BY ") (lit ", ") (order_text E) (s_order q) cl /\ trimmed (words ([lit "SELECT"; lit "*"] ++ cl)) t.
Proof. exact order_only. Qed.
Print Assumptions C24_order_text.
Definition C24_history : list (backend * selop) :=
  [(BMySql, SOrderBy [vs "a"; VSeq KTuple [vs "b"; vs "desc"]] []); (BMySql, SOrderBy [VSeq KList [vs "a"; vs "DeSc"]; VSeq KTuple [vs "b"]; VSeq KTuple [vs "c"; vs "up"]] [])].
Example C24_example :
  order_asked (supper (demo BSql)) (map snd C24_history)
    [[(vs "a", VNone); (vs "b", vs "desc")]; [(vs "a", vs "DeSc"); (vs "b", VNone)]] /\
  s_order (calls sel_step empty_select (program (demo BSql) C24_history)) = [(vs "a", Desc); (vs "b", Asc)].
Proof.
  assert (NM : forall s, name_arg (vs s)) by (intros s; left; eexists; reflexivity).
  assert (K : forall a, (forall d, a <> [VDict d]) -> keys_ok a []).
  { intros a Ha. split; [constructor|]. intros d Q. destruct (Ha d Q). }
  split; [|vm_compute; reflexivity]. unfold order_asked, C24_history. cbn [map snd].
  constructor; [|constructor; [|constructor]]; (split; [apply K; discriminate|]); right.
  - exists [(vs "a", VNone); (vs "b", vs "desc")]. split; [|split; [repeat (apply Forall_cons; [apply NM|]); apply Forall_nil|]].
    + apply (aa_items _ [(vs "a", VNone); (vs "b", vs "desc")] _ []); [intros; discriminate| |split; constructor].
      constructor; [right; split; [intros l [Q|Q]; discriminate|reflexivity]|].
      constructor; [left; eexists; split; [right; reflexivity|constructor]|constructor].
    + apply acc_ok; [exists Asc; now left|]. apply acc_ok; [|constructor]. exists Desc. right. eexists. split; [reflexivity|]. right. split; vm_compute; reflexivity.
  - exists [(vs "a", vs "DeSc"); (vs "b", VNone); (vs "c", vs "up")]. split; [|split; [repeat (apply Forall_cons; [apply NM|]); apply Forall_nil|]].
    + apply (aa_items _ [(vs "a", vs "DeSc"); (vs "b", VNone); (vs "c", vs "up")] _ []); [intros; discriminate| |split; constructor].
      constructor; [left; eexists; split; [left; reflexivity|constructor]|].
      constructor; [left; eexists; split; [right; reflexivity|constructor]|].
      constructor; [left; eexists; split; [right; reflexivity|constructor]|constructor].
    + apply acc_ok; [exists Desc; right; eexists; split; [reflexivity|]; right; split; vm_compute; reflexivity|].
      apply acc_ok; [exists Asc; now left|]. apply acc_bad. intros [d [[Q _]|[s [Q [[U _]|[U _]]]]]]; try discriminate;
        injection Q as <-; vm_compute in U; discriminate.
Qed.

(** C31.  Exactly the specified text, and a text exactly if all clauses have one. *)
Theorem C31_select_text : forall E H t, let q := calls sel_step empty_select H in
  text E (VSelect q) = Ok t <->
  select_text E (map snd H) (s_cols q) (s_tabs q) (s_where q) (s_group q) (s_having q) (s_order q) t.
Proof. exact select_statement. Qed.
Print Assumptions C31_select_text.
(** Calls for different clauses can be exchanged. *)
Theorem C31_call_order : forall H H' q, same_calls H H' -> calls sel_step q H = calls sel_step q H'.
Proof. exact clauses_independent. Qed.
Print Assumptions C31_call_order.
Example C31_example : forall w1 w2 w3 w4 : world,
  same_calls [(w1, SLimit (VInt 1) VNone); (w2, SWhere [vs "a"; VInt 1] []); (w3, SFrom [vs "t"] []); (w4, SWhere [vs "b"; VInt 2] [])]
             [(w3, SFrom [vs "t"] []); (w2, SWhere [vs "a"; VInt 1] []); (w4, SWhere [vs "b"; VInt 2] []); (w1, SLimit (VInt 1) VNone)].
Proof. intros w1 w2 w3 w4 []; reflexivity. Qed.
Example C31_example_text : text (demo BSql) (VSelect (calls sel_step empty_select
  [(demoW BSql, SForUpdate (VBool true)); (demoW BSql, SLimit (VInt 5) (VInt 2)); (demoW BSql, SOrderBy [vs "o"] []);
   (demoW BSql, SHaving [vs "h"; VInt 1] []); (demoW BSql, SGroupBy [vs "g"] []); (demoW BSql, SWhere [vs "w"; VInt 1] []);
   (demoW BSql, SFrom [vs "t"] []); (demoW BSql, SColumns [vs "c"] []); (demoW BSql, SOpt ODistinct (VBool true)); (demoW BSql, SOut OFile (vs "f"))]))
  = Ok (lit "SELECT DISTINCT ""c"" FROM ""t"" WHERE ""w"" = 1 GROUP BY ""g"" HAVING ""h"" = 1 ORDER BY ""o"" LIMIT 5 OFFSET 2 INTO OUTFILE 'f' FOR UPDATE").
Proof. vm_compute. reflexivity. Qed.

(** C32.  The statement of values() calls in the text of an INSERT. *)
Theorem C32_rectangular : forall E H t, let q := calls ins_step empty_insert H in
  i_rows q <> [] -> text E (VInsert q) = Ok t ->
  exists rows u before after, i_rows q = map row_parts rows /\ rows_text E rows u /\ t = before ++ u ++ after.
Proof. exact insert_rows. Qed.
Print Assumptions C32_rectangular.
(** One call makes one row.  That the last value of a column counts is false if a value
    comes back: values([('a', 1), ('a', 2), ('a', 1)]). *)
Theorem C32_last_value_refuted :
  set_call [VSeq KList [VSeq KTuple [vs "a"; VInt 1]; VSeq KTuple [vs "a"; VInt 2]; VSeq KTuple [vs "a"; VInt 1]]] []
    [(vs "a", VInt 1); (vs "a", VInt 2); (vs "a", VInt 1)] /\
  text (demo BSql) (VInsert (calls ins_step empty_insert [(demoW BSql, IInto (vs "t"));
    (demoW BSql, IValues [VSeq KList [VSeq KTuple [vs "a"; VInt 1]; VSeq KTuple [vs "a"; VInt 2]; VSeq KTuple [vs "a"; VInt 1]]] [])]))
  = Ok (lit "INSERT INTO ""t"" (""a"") VALUES (2)").
Proof.
  split; [|vm_compute; reflexivity]. eapply sc_items.
  - apply (pa_list _ [VSeq KTuple [vs "a"; VInt 1]; VSeq KTuple [vs "a"; VInt 2]; VSeq KTuple [vs "a"; VInt 1]]
             [(vs "a", VInt 1); (vs "a", VInt 2); (vs "a", VInt 1)] [] []); [now left| |split; constructor].
    repeat (constructor; [eexists; split; [right; reflexivity|constructor]|]). constructor.
  - repeat (constructor; [split; [reflexivity|split; [reflexivity|intros [[? Q]|[[? Q]|[? Q]]]; discriminate]]|]). constructor.
  - repeat (apply acc_ok; [split; [eexists; reflexivity|right; right; left; eexists; reflexivity]|]). constructor.
Qed.
Print Assumptions C32_last_value_refuted.
Theorem C32_one_row_partial : forall E q a k r q', keys_ok a k -> (forall x, a = [x] -> is_sql x = false) -> set_call a k r ->
  ins_step (pure_world E) q (IValues a k) = (q', Ok tt) ->
  exists out, i_rows q' = i_rows q ++ [map (fun p => VValue (fst p) (snd p)) out] /\ first_occurrences r out /\
    (forall c v, assigned out c v <-> newest r c v) /\
    forall c v, never_back r c -> assigned r c v -> assigned out c v.
Proof. exact row_call. Qed.
Print Assumptions C32_one_row_partial.
Example C32_example : text (demo BSql) (VInsert (calls ins_step empty_insert
  [(demoW BSql, IInto (vs "t")); (demoW BSql, IValues [] [(lit "b", VInt 1); (lit "a", VInt 2)]); (demoW BSql, IValues [] [(lit "c", vs "x")])]))
  = Ok (lit "INSERT INTO ""t"" (""a"", ""b"", ""c"") VALUES (2, 1, NULL), (NULL, NULL, 'x')").
Proof. vm_compute. reflexivity. Qed.

(** C33.  False: set(a=1).set(a=2).set(a=1) leaves a = 2. *)
Definition C33_history : list (backend * updop) :=
  [(BSql, UTable (vs "t")); (BSql, UAllow); (BSql, USet [] [(lit "a", VInt 1)]); (BSql, USet [] [(lit "a", VInt 2)]); (BSql, USet [] [(lit "a", VInt 1)])].
Lemma C33_asked : set_asked (map snd C33_history) [[]; []; [(vs "a", VInt 1)]; [(vs "a", VInt 2)]; [(vs "a", VInt 1)]].
Proof.
  assert (X : forall n, set_call [] [(lit "a", VInt n)] [(vs "a", VInt n)]).
  { intros n. eapply sc_items.
    - apply (pa_items [] [] [(lit "a", VInt n)] [(vs "a", VInt n)]); [discriminate|intros; discriminate|constructor|].
      split; [apply Permutation_refl|repeat constructor].
    - repeat constructor; intros [[? Q]|[[? Q]|[? Q]]]; discriminate.
    - apply acc_ok; [|constructor]. split; [eexists; reflexivity|]. right. right. left. eexists. reflexivity. }
  assert (K : forall n, keys_ok [] [(lit "a", VInt n)]).
  { intros n. split; [repeat constructor; intros []|intros; discriminate]. }
  unfold set_asked, C33_history. cbn [map snd]. constructor; [reflexivity|]. constructor; [reflexivity|].
  repeat (constructor; [split; [apply K|]; split; [intros; discriminate|apply X]|]). constructor.
Qed.
Theorem C33_last_assignment_refuted :
  set_asked (map snd C33_history) [[]; []; [(vs "a", VInt 1)]; [(vs "a", VInt 2)]; [(vs "a", VInt 1)]] /\
  assigned [(vs "a", VInt 1); (vs "a", VInt 2); (vs "a", VInt 1)] (vs "a") (VInt 1) /\
  text (demo BSql) (VUpdate (calls upd_step empty_update (program (demo BSql) C33_history))) = Ok (lit "UPDATE ""t"" SET ""a"" = 1, ""a"" = 2").
Proof.
  split; [exact C33_asked|]. split; [|vm_compute; reflexivity].
  exists [(vs "a", VInt 1); (vs "a", VInt 2)], []. split; [reflexivity|intros []].
Qed.
Print Assumptions C33_last_assignment_refuted.
(** What the SET list contains, which value it leaves in each column, and that this is the
    last assignment for the columns none of whose assignments came back.  Missing: values of bool, float, Decimal, SQL objects. *)
Theorem C33_set_partial : forall E H asked, set_asked (map snd H) asked ->
  exists out, u_vals (calls upd_step empty_update (program E H)) = map (fun p => VValue (fst p) (snd p)) out /\
    first_occurrences (List.concat asked) out /\
    (forall c v, assigned out c v <-> newest (List.concat asked) c v) /\
    forall c v, never_back (List.concat asked) c -> assigned (List.concat asked) c v -> assigned out c v.
Proof. exact set_last_wins. Qed.
Print Assumptions C33_set_partial.
Example C33_example : let l := [(vs "a", VInt 1); (vs "b", VInt 1); (vs "a", VInt 2); (vs "a", VInt 2)] in
  assigned l (vs "a") (VInt 2) /\ never_back l (vs "a").
Proof.
  split; [exists [(vs "a", VInt 1); (vs "b", VInt 1); (vs "a", VInt 2)], []; split; [reflexivity|intros []]|].
  intros v pre mid post E w Hw.
  destruct pre as [|p1 [|p2 [|p3 [|p4 pre]]]]; destruct mid as [|m1 [|m2 [|m3 [|m4 mid]]]]; cbn [app] in E;
    first [discriminate E
          |exfalso; injection E; intros; destruct pre; discriminate
          |exfalso; injection E; intros; destruct mid; discriminate
          |inversion E; subst; cbn [In] in Hw; intuition congruence].
Qed.

(** C34.  [merged] (SpecClauses.v) says what becomes of the joins; it is the list that is shown. *)
Theorem C34_joins : forall E n a js t,
  text E (VSelect (MkSel no_selopts [] [MkTable n a js] [] [] [] [] (MkLimits None None) (MkOutfile None None None None) false)) = Ok t <->
  exists u, table_text E (MkTable n a js) u /\ trimmed (words [lit "SELECT"; lit "*"; lit "FROM " ++ u]) t.
Proof. exact one_table. Qed.
Print Assumptions C34_joins.
Theorem C34_nothing_lost : forall E js ms, merged E js ms ->
  forall j, In j js -> exists m h, In m ms /\ In h js /\
    (j_name m = j_name h /\ j_alias m = j_alias h /\ j_ons m = j_ons h) /\ (h = j \/ join_equal E h j = Ok true).
Proof. exact merged_keeps. Qed.
Print Assumptions C34_nothing_lost.
Theorem C34_nothing_invented : forall E js ms, merged E js ms -> forall m, In m ms ->
  exists h, In h js /\ (j_name m = j_name h /\ j_alias m = j_alias h /\ j_ons m = j_ons h) /\
    (j_type m = j_type h \/ j_type m = JInner /\ exists x, In x js /\ j_type x = JInner /\ join_equal E h x = Ok true).
Proof. exact merged_invents_nothing. Qed.
Print Assumptions C34_nothing_invented.
Definition C34_join (ty : jointy) (n c : string) : join val := MkJoin ty (vs n) VNone [VCond KOn (vs "t.id") REq (vs c)].
Example C34_example : merged (demo BSql)
  [C34_join JLeft "u" "u.id"; C34_join JLeft "v" "v.id"; C34_join JInner "u" "u.id"; C34_join JRight "v" "v.id"; C34_join JLeft "w" "w.id"; C34_join JLeft "w" "w.id"]
  [C34_join JInner "u" "u.id"; C34_join JLeft "v" "v.id"; C34_join JRight "v" "v.id"; C34_join JLeft "w" "w.id"].
Proof. apply minimize_merged. vm_compute. reflexivity. Qed.

(** C38. *)
Theorem C38_needs_table : forall W,
  (forall q ty arg a k, s_tabs q = [] -> sel_step W q (SJoin ty arg) = (q, Err EInvalidQuery) /\ sel_step W q (SOn a k) = (q, Err EInvalidQuery)) /\
  (forall q ty arg a k, u_tabs q = [] -> upd_step W q (UJoin ty arg) = (q, Err EInvalidQuery) /\ upd_step W q (UOn a k) = (q, Err EInvalidQuery)) /\
  (forall q ty arg a k, d_refs q = [] -> del_step W q (DJoin ty arg) = (q, Err EInvalidQuery) /\ del_step W q (DOn a k) = (q, Err EInvalidQuery)).
Proof. exact join_on_without_table. Qed.
Print Assumptions C38_needs_table.
Theorem C38_on_needs_join : forall W ts n al,
  (forall q a k, s_tabs q = ts ++ [MkTable n al []] -> sel_step W q (SOn a k) = (q, Err EInvalidQuery)) /\
  (forall q a k, u_tabs q = ts ++ [MkTable n al []] -> upd_step W q (UOn a k) = (q, Err EInvalidQuery)) /\
  (forall q a k, d_refs q = ts ++ [MkTable n al []] -> del_step W q (DOn a k) = (q, Err EInvalidQuery)).
Proof. exact on_without_join. Qed.
Print Assumptions C38_on_needs_join.
Theorem C38_join_attached_select : forall W q q' ty arg ts n a js, s_tabs q = ts ++ [MkTable n a js] ->
  (sel_step W q (SJoin ty arg) = (q', Ok tt) <->
   (ty = JFull -> supports_full_join (e_be (w_env W)) = true) /\
   exists n' a', join_arg arg n' a' /\ table_ok_ n' a' /\
     sel_but_tables q q' /\ s_tabs q' = ts ++ [MkTable n a (js ++ [MkJoin ty n' a' []])]).
Proof. exact sel_join. Qed.
Print Assumptions C38_join_attached_select.
Theorem C38_join_attached_update : forall W q q' ty arg ts n a js, u_tabs q = ts ++ [MkTable n a js] ->
  (upd_step W q (UJoin ty arg) = (q', Ok tt) <->
   exists n' a', join_arg arg n' a' /\ table_ok_ n' a' /\
     upd_but_tables q q' /\ u_tabs q' = ts ++ [MkTable n a (js ++ [MkJoin (j3 ty) n' a' []])]).
Proof. exact upd_join. Qed.
Print Assumptions C38_join_attached_update.
Theorem C38_join_attached_delete : forall W q q' ty arg ts n a js, d_refs q = ts ++ [MkTable n a js] ->
  (del_step W q (DJoin ty arg) = (q', Ok tt) <->
   exists n' a', join_arg arg n' a' /\ table_ok_ n' a' /\
     del_but_tables q q' /\ d_refs q' = ts ++ [MkTable n a (js ++ [MkJoin (j3 ty) n' a' []])]).
Proof. exact del_join. Qed.
Print Assumptions C38_join_attached_delete.
Theorem C38_failed_join_changes_nothing : forall W,
  (forall q ty arg q' e, sel_step W q (SJoin ty arg) = (q', Err e) -> q' = q) /\
  (forall q ty arg q' e, upd_step W q (UJoin ty arg) = (q', Err e) -> q' = q) /\
  (forall q ty arg q' e, del_step W q (DJoin ty arg) = (q', Err e) -> q' = q).
Proof. exact join_fails. Qed.
Print Assumptions C38_failed_join_changes_nothing.
(** [conds_where] is where(), of which C17-C22 speak. *)
Theorem C38_on_attached : forall W ts n a js ty n' a' ons args kwds ons' o, conds_where W KOn ons args kwds = (ons', o) ->
  let before := ts ++ [MkTable n a (js ++ [MkJoin ty n' a' ons])] in
  let after := ts ++ [MkTable n a (js ++ [MkJoin ty n' a' ons'])] in
  (forall q, s_tabs q = before -> exists q', sel_step W q (SOn args kwds) = (q', o) /\ sel_but_tables q q' /\ s_tabs q' = after) /\
  (forall q, u_tabs q = before -> exists q', upd_step W q (UOn args kwds) = (q', o) /\ upd_but_tables q q' /\ u_tabs q' = after) /\
  (forall q, d_refs q = before -> exists q', del_step W q (DOn args kwds) = (q', o) /\ del_but_tables q q' /\ d_refs q' = after).
Proof. exact on_attached. Qed.
Print Assumptions C38_on_attached.
Example C38_example : exists q, q = calls sel_step empty_select
  [(demoW BSql, SFrom [vs "t"; vs "u"] []); (demoW BSql, SJoin JLeft (VDict [(vs "v", vs "x")])); (demoW BSql, SOn [vs "t.id"; vs "x.id"] [])] /\
  s_tabs q = [MkTable (vs "t") VNone []; MkTable (vs "u") VNone [MkJoin JLeft (vs "v") (vs "x") [VCond KOn (vs "t.id") REq (vs "x.id")]]].
Proof. eexists. split; [reflexivity|]. vm_compute. reflexivity. Qed.

(** C49. *)
Theorem C49_into_outfile : forall E H t, only CnOutfile H ->
  text E (VSelect (calls sel_step empty_select H)) = Ok t <->
  exists cl, out_clause E (map snd H) cl /\ trimmed (words ([lit "SELECT"; lit "*"] ++ cl)) t.
Proof. exact out_only. Qed.
Print Assumptions C49_into_outfile.
Example C49_example : text (demo BSql) (VSelect (calls sel_step empty_select
  [(demoW BSql, SOut OEncl (vs "'")); (demoW BSql, SOut OFile (vs "f")); (demoW BSql, SOut OLines (VInt 1)); (demoW BSql, SOut OFields (vs ",")); (demoW BSql, SOut OFields (vs ";"))]))
  = Ok (lit "SELECT * INTO OUTFILE 'f' FIELDS TERMINATED BY ';' OPTIONALLY ENCLOSED BY ''''").
Proof. vm_compute. reflexivity. Qed.

(** C52-C54: the other statements. *)
Theorem C52_update_text : forall E H t, let q := calls upd_step empty_update H in
  text E (VUpdate q) = Ok t <->
  (u_where q <> [] \/ update_confirmed (map snd H)) /\ update_text E (map snd H) (u_tabs q) (u_vals q) (u_where q) t.
Proof. exact update_statement. Qed.
Print Assumptions C52_update_text.
Theorem C53_delete_text : forall E H t, let q := calls del_step empty_delete H in
  text E (VDelete q) = Ok t <->
  (d_where q <> [] \/ delete_confirmed (map snd H)) /\ delete_text E (map snd H) (d_tabs q) (d_refs q) (d_where q) t.
Proof. exact delete_statement. Qed.
Print Assumptions C53_delete_text.
Theorem C54_insert_text : forall E H t, let q := calls ins_step empty_insert H in
  text E (VInsert q) = Ok t <->
  insert_text E (map snd H) (i_replace q) (i_tabs q) (i_rows q) (i_dup q) (i_conflict q) (i_upd q) t.
Proof. exact insert_statement. Qed.
Print Assumptions C54_insert_text.
Example C52_example : text (demo BMySql) (VUpdate (calls upd_step empty_update
  [(demoW BMySql, UTable (vs "t")); (demoW BMySql, UWhere [vs "id"; VInt 1] []); (demoW BMySql, USet [vs "a"; vs "it's"] []); (demoW BMySql, UIgnore (VBool true));
   (demoW BMySql, UJoin J3Left (vs "u")); (demoW BMySql, UOn [vs "t.id"; vs "u.id"] [])]))
  = Ok (lit "UPDATE IGNORE `t` LEFT JOIN `u` ON `t`.`id` = `u`.`id` SET `a` = 'it''s' WHERE `id` = 1").
Proof. vm_compute. reflexivity. Qed.
Example C53_example : text (demo BSql) (VDelete (calls del_step empty_delete
  [(demoW BSql, DFrom [vs "t"] []); (demoW BSql, DDelete [vs "t"]); (demoW BSql, DAllow); (demoW BSql, DForbid); (demoW BSql, DWhere [] [(lit "a", VNone)])]))
  = Ok (lit "DELETE ""t"" FROM ""t"" WHERE ""a"" IS NULL").
Proof. vm_compute. reflexivity. Qed.
Example C54_example : text (demo BMySql) (VInsert (calls ins_step empty_insert
  [(demoW BMySql, IInto (vs "t")); (demoW BMySql, IValues [] [(lit "id", VInt 1)]); (demoW BMySql, IOnDup [] [(lit "n", VInt 2)])]))
  = Ok (lit "INSERT INTO `t` (`id`) VALUES (1) ON DUPLICATE KEY UPDATE `n` = 2").
Proof. vm_compute. reflexivity. Qed.
