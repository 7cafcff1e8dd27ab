(** Constructors on the heap, for examples: the objects Python creates. *)
From Coq Require Import Lia.
From Verif Require Import Base NumFmt Value Heap SpecHeap PfHeap.
Open Scope string_scope.
Open Scope list_scope.
Open Scope nat_scope.

Definition new (h : heap) (k : kind) (l : list (label * ref)) : heap * ref :=
  (h ++ [MkObj k l], RPtr (List.length h)).
Definition av (v : val) : ref := RAtom (AVal v).
Definition astr (s : string) : ref := av (VStr (lit s)).
Definition inst (h : heap) (c : cls) (l : list (string * ref)) : heap * ref :=
  new h (OInst c) (map (fun x => (LAttr (fst x), snd x)) l).
Definition newdict (h : heap) (l : list (string * ref)) : heap * ref :=
  new h ODict (flat_map (fun x => [(LKey, astr (fst x)); (LVal, snd x)]) l).
(** QueryParts.__init__ and append: queryparts.py:42-44, 75-91. *)
Definition new_parts (h : heap) (c : cls) (sep : string) (l : list ref) : heap * ref :=
  let (h1, p) := new h (OInst CListOfQueryParts) ((LAttr "_separator", astr sep) :: map (fun r => (LItem, r)) l) in
  inst h1 c [("_parts", p)].
(** Options.__init__: options.py:10-14. *)
Definition new_options (h : heap) (c : cls) (ks : list string) : heap * ref :=
  let (h1, d) := newdict h (map (fun k => (k, astr "off")) ks) in
  inst h1 c [("_options", d)].
(** SqlValue.__init__: sqlvalue.py:40-61 (two of the entries of _map). *)
Definition new_sqlvalue (h : heap) (v : ref) : heap * ref :=
  let self := RPtr (List.length h) in
  let d := RPtr (S (List.length h)) in
  let m1 := RPtr (S (S (List.length h))) in
  let m2 := RPtr (S (S (S (List.length h)))) in
  (h ++ [MkObj (OInst CSqlValue) [(LAttr "_map", d); (LAttr "value", v)];
         MkObj ODict [(LKey, RAtom (AType "str")); (LVal, m1); (LKey, RAtom (AType "int")); (LVal, m2)];
         MkObj OMethod [(LFunc, RAtom (AFun "_string")); (LSelf, self)];
         MkObj OMethod [(LFunc, RAtom (AFun "_integer")); (LSelf, self)]], self).
(** Condition.__init__ with relation EQ: conditions.py:42-45, 76-83. *)
Definition new_condition (h : heap) (col : string) (v : ref) : heap * ref :=
  let (h1, r) := inst h (CRelation REq) [("_value", v)] in
  inst h1 CCondition [("_column_name", astr col); ("_value", r)].
(** Query.__init__: query.py:12-18, with given WHERE parts. *)
Definition select_where (h : heap) (ws : list ref) : heap * ref :=
  let (h, o) := new_options h CSelectOptions
    ["sql_cache"; "duplicated"; "sql_small_result"; "sql_big_result"; "sql_buffer_result"; "sql_calc_found_rows"; "straight_join"; "high_priority"] in
  let (h, c) := new_parts h CColumns ", " [] in
  let (h, j) := new h OList [] in
  let (h, t) := inst h CTable [("_table_name", astr "t"); ("_alias", av VNone); ("_joins", j)] in
  let (h, t) := new_parts h CTablesForSelect ", " [t] in
  let (h, w) := new_parts h CWhere " AND " ws in
  let (h, g) := new_parts h CGroupBy ", " [] in
  let (h, hv) := new_parts h CHaving " AND " [] in
  let (h, ob) := new_parts h COrderBy ", " [] in
  let (h, li) := inst h CLimit [("_limit", av (VInt 3)); ("_offset", av VNone)] in
  let (h, io) := inst h CIntoOutfile [("_into_outfile", av VNone); ("_fields_terminated_by", av VNone);
                                      ("_lines_terminated_by", av VNone); ("_optionally_enclosed_by", av VNone)] in
  let (h, fu) := inst h CSelectForUpdate [("_for_update", av (VBool false))] in
  let ps := [("select_options", o); ("columns", c); ("tables", t); ("where", w); ("group_by", g); ("having", hv);
             ("order_by", ob); ("limit", li); ("into_outfile", io); ("select_for_update", fu)] in
  let (h, d) := newdict h ps in
  inst h CSelect (("_queryparts", d) :: map (fun x => (String.append "_" (fst x), snd x)) ps).

(** A heap checker. *)
Definition ref_ok (n : nat) (r : ref) : bool := match r with RAtom _ => true | RPtr q => q <? n end.
Definition is_comp (h : heap) (q : addr) : bool :=
  match get h q with Some (MkObj (OTuple | OSet | OFrozenset) _) => true | _ => false end.
Definition obj_ok (h : heap) (p : addr) (o : obj) : bool :=
  forallb (fun x => ref_ok (List.length h) (snd x)) (o_refs o) &&
  match o_kind o with
  | OMethod => match o_refs o with
               | [(LFunc, RAtom (AFun _)); (LSelf, RPtr s)] => is_inst (get h s)
               | _ => false
               end
  | OTuple => forallb (fun x => match snd x with RAtom _ => true | RPtr q => negb (is_comp h q) || (q <? p) end) (o_refs o)
  | OSet | OFrozenset => false
  | _ => true
  end.
Definition heap_ok (h : heap) : bool :=
  forallb (fun p => match get h p with Some o => obj_ok h p o | None => true end) (seq 0 (List.length h)).
Lemma heap_ok_at : forall h p o, heap_ok h = true -> get h p = Some o -> obj_ok h p o = true.
Proof.
  intros h p o H G. unfold heap_ok in H. rewrite forallb_forall in H.
  specialize (H p). rewrite G in H. apply H. apply in_seq. apply get_lt in G. lia.
Qed.
Lemma heap_ok_wf : forall h, heap_ok h = true -> well_formed h.
Proof.
  intros h H. constructor.
  - intros p q (k & l & a & G & Ha). pose proof (heap_ok_at _ _ _ H G) as O. unfold obj_ok in O.
    apply andb_true_iff in O. destruct O as [O _]. rewrite forallb_forall in O. specialize (O _ Ha). simpl in O.
    apply Nat.ltb_lt in O. exact O.
  - intros p l G. pose proof (heap_ok_at _ _ _ H G) as O. unfold obj_ok in O. apply andb_true_iff in O. destruct O as [_ O].
    cbn [o_kind o_refs] in O.
    destruct l as [|[[] [[]|]] [|[[] [|s]] []]]; try discriminate.
    destruct (get h s) as [[[] ?]|] eqn:Gs; try discriminate.
    eexists _, s, _. split; [reflexivity|]. unfold kind_of. rewrite Gs. reflexivity.
  - exists (fun p => p). split; [intros; lia|].
    intros p q k k' Kp Ck (k1 & l & a & G & Ha) Kq Ck'. unfold kind_of in Kp. rewrite G in Kp. injection Kp as ->.
    pose proof (heap_ok_at _ _ _ H G) as O. unfold obj_ok in O. apply andb_true_iff in O. destruct O as [_ O].
    cbn [o_kind o_refs] in O.
    destruct Ck as [->|[->| ->]]; [|discriminate|discriminate].
    rewrite forallb_forall in O. specialize (O _ Ha). simpl in O. apply orb_true_iff in O. destruct O as [O|O].
    + exfalso. unfold is_comp in O. unfold kind_of in Kq. destruct (get h q) as [[kq lq]|]; [|discriminate]. injection Kq as ->.
      destruct Ck' as [->|[->| ->]]; discriminate.
    + apply Nat.ltb_lt in O. exact O.
  - intros p k r Kp Ck (k1 & l & a & G & Ha) _. unfold kind_of in Kp. rewrite G in Kp. injection Kp as ->.
    pose proof (heap_ok_at _ _ _ H G) as O. unfold obj_ok in O. apply andb_true_iff in O. destruct O as [_ O].
    destruct Ck as [->| ->]; discriminate.
Qed.

(** q = Q(...) shared by two queries, and a V object:
    c = Condition(id, V(x)); q = Q(c); s1 = select(where q); s2 = select(where q, exists-like nesting left out). *)
Definition d_v := new_sqlvalue [] (astr "x y").
Definition d_c := new_condition (fst d_v) "name" (snd d_v).
Definition d_q := new_parts (fst d_c) CConditions " AND " [snd d_c].
Definition d_s1 := select_where (fst d_q) [snd d_q].
Definition d_s2 := select_where (fst d_s1) [snd d_q; snd d_c].
Definition demo_heap : heap := fst d_s2.
Definition demo_at : addr := match snd d_s1 with RPtr p => p | _ => 0 end.
(** The shared Q gets another condition, q.where(age=1): a relation and a condition are
    created, and the list of the parts of q gets a new element. *)
Definition q_parts : addr := List.length (fst d_c).
Definition q_where (h : heap) : heap :=
  let (h1, r) := new_condition h "age" (av (VInt 1)) in
  put h1 q_parts (MkObj (OInst CListOfQueryParts) [(LAttr "_separator", astr " AND "); (LItem, snd d_c); (LItem, r)]).
Lemma q_where_run : forall h, get h q_parts = get demo_heap q_parts ->
  (exists a l, get h (S q_parts) = Some (MkObj (OInst CConditions) l) /\ In (a, RPtr q_parts) l) ->
  exists K, run [snd d_q; snd d_c] h K (q_where h).
Proof.
  intros h G (a & l & Gq & Hl).
  set (n := List.length h).
  assert (Ln : q_parts < n) by (eapply get_lt; rewrite G; reflexivity).
  assert (Ln' : S q_parts < n) by (eapply get_lt; exact Gq).
  exists [RPtr (S n); RPtr n; snd d_q; snd d_c]. unfold q_where, new_condition, inst, new. cbv beta iota zeta. cbn [map fst snd].
  eapply run_step.
  { apply (st_new _ h (OInst (CRelation REq)) [(LAttr "_value", av (VInt 1))]).
    intros b r [E|[]]. injection E as <- <-. left. eexists. reflexivity. }
  eapply run_step.
  { apply (st_new _ _ (OInst CCondition) [(LAttr "_column_name", astr "age"); (LAttr "_value", RPtr n)]).
    intros b r [E|[E|[]]]; injection E as <- <-; [left; eexists; reflexivity|].
    right. exists (RPtr n). split; [now left|apply reach_refl]. }
  rewrite app_len. fold n.
  eapply run_step; [|apply run_end].
  assert (Old : forall x y p, p < n -> get ((h ++ [x]) ++ [y]) p = get h p).
  { intros x y p Lp. rewrite get_old by (rewrite app_len; fold n; lia). apply get_old. exact Lp. }
  eapply st_write.
  - right. exists (snd d_q). split; [right; right; now left|]. change (snd d_q) with (RPtr (S q_parts)).
    eapply reach_step; [|apply reach_refl]. exists (OInst CConditions), l, a. split; [|exact Hl]. rewrite Old by exact Ln'. exact Gq.
  - rewrite Old by exact Ln. rewrite G. reflexivity.
  - right. right. right. eexists. reflexivity.
  - intros b r [E|[E|[E|[]]]]; injection E as <- <-.
    + left. eexists. reflexivity.
    + right. exists (snd d_c). split; [do 3 right; now left|apply reach_refl].
    + right. exists (RPtr (S n)). split; [now left|apply reach_refl].
Qed.
