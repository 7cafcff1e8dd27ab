(** Lemmas: new queries. *)
From Coq Require Import Lia.
From Verif Require Import Base NumFmt Value Backend Eq Render ParseArgs Build Queries Heap SpecHeap PfHeap PfHeapAlike PfHeapFrame PfHeapView HeapBuild SpecShare PfShare PfOwn PfParts PfNewItems PfMethods PfLayout PfOrders PfTables PfJoins PfCells PfConflict PfQueries PfCalls PfReading PfInside.
Open Scope nat_scope.
Local Arguments view : simpl never.

(** ** Objects added at the end *)
Lemma alloc_app : forall h l k r, alloc k r (h ++ l) = (h ++ (l ++ [MkObj k r]), Ok (List.length h + List.length l)).
Proof. intros. unfold alloc. rewrite app_assoc, app_length. reflexivity. Qed.
Lemma get_add : forall h l i, get (h ++ l) (List.length h + i) = nth_error l i.
Proof. intros h l i. unfold get. rewrite nth_error_app2 by lia. f_equal. lia. Qed.
Lemma get_base : forall h l i, i < List.length h -> get (h ++ l) i = get h i.
Proof. intros h l i L. unfold get. apply nth_error_app1. exact L. Qed.
(** Whose the new objects are. *)
Definition owned_by (own : owner) (n : nat) (q : addr) (ss : list (option slot)) : owner := fun p =>
  if p <? n then own p else match nth_error ss (p - n) with Some (Some s) => Some (q, s) | _ => None end.
Lemma owned_add : forall own n q ss i, owned_by own n q ss (n + i) = match nth_error ss i with Some (Some s) => Some (q, s) | _ => None end.
Proof. intros. unfold owned_by. destruct (Nat.ltb_spec (n + i) n); [lia|]. replace (n + i - n) with i by lia. reflexivity. Qed.
Lemma owned_base : forall own n q ss p, p < n -> owned_by own n q ss p = own p.
Proof. intros. unfold owned_by. destruct (Nat.ltb_spec p n); [reflexivity|lia]. Qed.
Definition new_only (n m : nat) (r : ref) : Prop := match r with RAtom _ => True | RPtr p => n <= p /\ p < n + m end.
Lemma grows : forall own h l m c x ss, inv own h -> nth_error l m = Some (MkObj (OInst c) x) -> List.length ss = List.length l ->
  (forall i, i <> m -> i < List.length l -> exists s, nth_error ss i = Some (Some s)) -> nth_error ss m = Some None -> Forall (fun o => openk (o_kind o) <> false) l ->
  Forall (fun o => Forall (fun a => new_only (List.length h) (List.length l) (snd a)) (o_refs o)) l ->
  after nothing nothing own h (owned_by own (List.length h) (List.length h + m) ss) (h ++ l).
Proof.
  intros own h l m c x ss J GM LS SS SM GK RF. set (n := List.length h) in *. set (q := n + m).
  assert (RN : forall p r, n <= p -> refers (h ++ l) p r -> new_only n (List.length l) r).
  { intros p r L (k & y & a & G & I). replace p with (n + (p - n)) in G by lia. unfold n in G at 1. rewrite get_add in G. apply nth_error_In in G.
    rewrite Forall_forall in RF. specialize (RF _ G). rewrite Forall_forall in RF. exact (RF _ I). }
  assert (RO : forall p r, p < n -> refers (h ++ l) p r -> refers h p r).
  { intros p r L (k & y & a & G & I). rewrite get_base in G by exact L. exists k, y, a. auto. }
  assert (LL : List.length (h ++ l) = n + List.length l) by (rewrite app_length; reflexivity).
  assert (KQ : kind_of (h ++ l) q = Some (OInst c)) by (unfold kind_of, q, n; rewrite get_add, GM; reflexivity).
  assert (OQ : owned_by own n q ss q = None) by (unfold q at 2; rewrite owned_add, SM; reflexivity).
  split; [|split].
  - split; [lia|]. split; [intros p L; apply owned_base; exact L|]. intros p k K. unfold kind_of in *. destruct (get h p) eqn:G; [|discriminate].
    rewrite get_base by (eapply get_lt; eauto). rewrite G. exact K.
  - split.
    + intros p b R. rewrite LL. destruct (Nat.lt_ge_cases p n) as [L|L].
      * pose proof (in_closed _ _ J _ _ (RO _ _ L R)). lia.
      * pose proof (RN _ _ L R) as X. cbn in X. lia.
    + intros p q' s E. destruct (Nat.lt_ge_cases p n) as [L|L].
      * rewrite owned_base in E by exact L. destruct (in_own _ _ J _ _ _ E) as (A & B & cc & K). split; [lia|].
        assert (q' < n) by (eapply q_lt; eauto). split; [rewrite owned_base; auto|]. exists cc. unfold kind_of in *. rewrite get_base by lia. exact K.
      * replace p with (n + (p - n)) in E by lia. rewrite owned_add in E. destruct (nth_error ss (p - n)) as [[s'|]|] eqn:N; try discriminate. injection E as <- <-.
        assert (p - n < List.length ss) by (apply nth_error_Some; congruence). split; [lia|]. split; [exact OQ|]. exists c. exact KQ.
    + intros a b q' s R E. destruct (Nat.lt_ge_cases a n) as [L|L].
      * pose proof (RO _ _ L R) as R'. pose proof (in_closed _ _ J _ _ R') as LB. rewrite owned_base in E by exact LB. destruct (in_priv _ _ J _ _ _ _ R' E) as [->|[s' X]]; [left; reflexivity|].
        right. exists s'. rewrite owned_base by exact L. exact X.
      * pose proof (RN _ _ L R) as X. cbn in X. replace b with (n + (b - n)) in E by lia. rewrite owned_add in E. destruct (nth_error ss (b - n)) as [[s'|]|]; try discriminate. injection E as <- <-.
        assert (LA : a < n + List.length l) by (rewrite <- LL; eapply refers_lt; eauto). destruct (Nat.eq_dec (a - n) m) as [Em|N]; [left; unfold q; lia|]. right.
        destruct (SS (a - n)) as [s2 E2]; [exact N|lia|]. exists s2. replace a with (n + (a - n)) at 1 by lia. rewrite owned_add, E2. reflexivity.
    + intros p x0 E. destruct (Nat.lt_ge_cases p n) as [L|L].
      * rewrite owned_base in E by exact L. pose proof (in_kind _ _ J _ _ E) as X. unfold kind_of in *. rewrite get_base by exact L. exact X.
      * unfold kind_of. replace p with (n + (p - n)) by lia. unfold n at 1. rewrite get_add. destruct (nth_error l (p - n)) as [o|] eqn:NE; [|discriminate]. apply nth_error_In in NE. rewrite Forall_forall in GK. specialize (GK _ NE). intros X. apply GK. destruct o as [ko lo]. injection X as X. exact X.
  - intros p L. left. apply get_base. exact L.
Qed.

(** ** The objects of the new queries *)
Definition plist (sep : string) : obj := MkObj (OInst CListOfQueryParts) [(LAttr "_separator", astr sep)].
Definition ppart (c : cls) (l : addr) (more : list (label * ref)) : obj := MkObj (OInst c) ((LAttr "_parts", RPtr l) :: more).
Definition odict (ks : list string) : obj := MkObj ODict (flat_map (fun k => [(LKey, astr k); (LVal, astr "off")]) ks).
Definition opart (c : cls) (d : addr) : obj := MkObj (OInst c) [(LAttr "_options", RPtr d)].
Fixpoint pick (l : list (string * addr)) (k : string) : addr := match l with [] => 0 | (x, a) :: l => if String.eqb k x then a else pick l k end.
Definition two (k : string) : list (option slot) := [Some (k, PList); Some (k, PPart)].
Definition opt2 (k : string) : list (option slot) := [Some (k, PDict); Some (k, PPart)].

Definition sel_where (n : nat) : list (string * addr) :=
  [("columns", n + 1); ("group_by", n + 3); ("having", n + 5); ("into_outfile", n + 6); ("limit", n + 7); ("order_by", n + 9); ("select_for_update", n + 10);
   ("select_options", n + 12); ("tables", n + 14); ("where", n + 16)].
Definition sel_objs (n : nat) : list obj :=
  [plist ", "; ppart CColumns (n + 0) []; plist ", "; ppart CGroupBy (n + 2) []; plist " AND "; ppart CHaving (n + 4) []; MkObj (OInst CIntoOutfile) (out_refs (fun _ => r_none));
   MkObj (OInst CLimit) [(LAttr "_limit", r_none); (LAttr "_offset", r_none)]; plist ", "; ppart COrderBy (n + 8) []; MkObj (OInst CSelectForUpdate) [(LAttr "_for_update", abool false)];
   odict selopt_keys; opart CSelectOptions (n + 11); plist ", "; ppart CTablesForSelect (n + 13) []; plist " AND "; ppart CWhere (n + 15) [];
   MkObj ODict (qdict sel_keys (pick (sel_where n))); MkObj (OInst CSelect) ((LAttr "_queryparts", RPtr (n + 17)) :: entries sel_keys (pick (sel_where n)) ++ [])].
Definition sel_slots : list (option slot) :=
  two "columns" ++ two "group_by" ++ two "having" ++ [Some ("into_outfile", PPart); Some ("limit", PPart)] ++ two "order_by" ++ [Some ("select_for_update", PPart)] ++ opt2 "select_options" ++ two "tables" ++ two "where"
  ++ [Some ("", PDict); None].
Lemma new_parts_app : forall h l c sep more, new_parts c sep more (h ++ l) = (h ++ (l ++ [plist sep; ppart c (List.length h + List.length l) more]), Ok (List.length h + S (List.length l))).
Proof.
  intros. unfold new_parts, hbind. rewrite alloc_app, alloc_app. unfold plist, ppart. rewrite <- app_assoc. rewrite app_length. cbn [List.length List.app]. rewrite Nat.add_1_r. reflexivity.
Qed.
Lemma new_options_app : forall h l c ks, new_options c ks (h ++ l) = (h ++ (l ++ [odict ks; opart c (List.length h + List.length l)]), Ok (List.length h + S (List.length l))).
Proof.
  intros. unfold new_options, hbind. rewrite alloc_app, alloc_app. rewrite <- app_assoc. rewrite app_length. cbn [List.length List.app]. rewrite Nat.add_1_r. reflexivity.
Qed.
Ltac made_one := unfold hbind at 1; first [rewrite new_parts_app|rewrite new_options_app|rewrite alloc_app]; cbn [List.app List.length].
Ltac made_query := unfold new_query; made_one; rewrite alloc_app; cbn [List.app List.length]; reflexivity.
Lemma new_select_is : forall h, new_select h = (h ++ sel_objs (List.length h), Ok (List.length h + 18)).
Proof. intros h. rewrite <- (app_nil_r h) at 1. unfold new_select. do 10 made_one. made_query. Qed.

Definition ins_where (n : nat) : list (string * addr) :=
  [("insert_options", n + 1); ("keyword", n + 2); ("on_conflict_do_update", n + 4); ("on_duplicate_key_update", n + 6); ("tables", n + 8); ("values", n + 10)].
Definition ins_objs (n : nat) : list obj :=
  [odict ["ignore"]; opart CInsertOptions (n + 0); MkObj (OInst CInsertKeyword) [(LAttr "_is_replace", abool false)]; plist ", "; ppart COnConflict (n + 3) [(LAttr "_on_conflict", astr "")];
   plist ", "; ppart COnDuplicate (n + 5) []; plist ", "; ppart CTables (n + 7) []; plist ", "; ppart CMultipleValues (n + 9) [];
   MkObj ODict (qdict ins_keys (pick (ins_where n))); MkObj (OInst CInsert) ((LAttr "_queryparts", RPtr (n + 11)) :: entries ins_keys (pick (ins_where n)) ++ [])].
Definition ins_slots : list (option slot) :=
  opt2 "insert_options" ++ [Some ("keyword", PPart)] ++ two "on_conflict_do_update" ++ two "on_duplicate_key_update" ++ two "tables" ++ two "values" ++ [Some ("", PDict); None].
Lemma new_insert_is : forall h, new_insert h = (h ++ ins_objs (List.length h), Ok (List.length h + 12)).
Proof. intros h. rewrite <- (app_nil_r h) at 1. unfold new_insert. do 6 made_one. made_query. Qed.

Definition upd_where (n : nat) : list (string * addr) := [("tables", n + 1); ("update_options", n + 3); ("values", n + 5); ("where", n + 7)].
Definition upd_objs (n : nat) : list obj :=
  [plist ", "; ppart CTables (n + 0) []; odict ["ignore"]; opart CUpdateOptions (n + 2); plist ", "; ppart CValues (n + 4) []; plist " AND "; ppart CWhere (n + 6) [];
   MkObj ODict (qdict upd_keys (pick (upd_where n))); MkObj (OInst CUpdate) ((LAttr "_queryparts", RPtr (n + 8)) :: entries upd_keys (pick (upd_where n)) ++ [(LAttr "_allow_update_all", abool false)])].
Definition upd_slots : list (option slot) := two "tables" ++ opt2 "update_options" ++ two "values" ++ two "where" ++ [Some ("", PDict); None].
Lemma new_update_is : forall h, new_update h = (h ++ upd_objs (List.length h), Ok (List.length h + 9)).
Proof. intros h. rewrite <- (app_nil_r h) at 1. unfold new_update. do 4 made_one. made_query. Qed.

Definition del_where (n : nat) : list (string * addr) := [("delete_options", n + 1); ("references", n + 3); ("tables", n + 5); ("where", n + 7)].
Definition del_objs (n : nat) : list obj :=
  [odict ["ignore"]; opart CDeleteOptions (n + 0); plist ", "; ppart CTables (n + 2) []; plist ", "; ppart CTables (n + 4) []; plist " AND "; ppart CWhere (n + 6) [];
   MkObj ODict (qdict del_keys (pick (del_where n))); MkObj (OInst CDelete) ((LAttr "_queryparts", RPtr (n + 8)) :: entries del_keys (pick (del_where n)) ++ [(LAttr "_allow_delete_all", abool false)])].
Definition del_slots : list (option slot) := opt2 "delete_options" ++ two "references" ++ two "tables" ++ two "where" ++ [Some ("", PDict); None].
Lemma new_delete_is : forall h, new_delete h = (h ++ del_objs (List.length h), Ok (List.length h + 9)).
Proof. intros h. rewrite <- (app_nil_r h) at 1. unfold new_delete. do 4 made_one. made_query. Qed.

Ltac below := let i := fresh "i" in let N := fresh "N" in let L := fresh "L" in intros i N L; cbn in L; repeat (destruct i as [|i]; [first [contradiction N; reflexivity|eexists; reflexivity]|]); lia.
Ltac news := repeat (constructor; [cbn; repeat (constructor; [cbn; try exact Logic.I; lia|]); constructor|]); constructor.
Lemma fresh_conds : forall A (see : heap -> ref -> res A) q k c sep more p own h l, get h p = Some (ppart c l more) -> get h l = Some (plist sep) ->
  own p = Some (q, (k, PPart)) -> own l = Some (q, (k, PList)) -> pd_at (condsd see q k c sep more p) own h [].
Proof. intros A see q k c sep more p own h l G1 G2 O1 O2. exists l. split; [|constructor]. split; [split; [exact G1|exact G2]|]. split; assumption. Qed.
Lemma fresh_tabs : forall q k c p own h l, get h p = Some (ppart c l []) -> get h l = Some (plist ", ") ->
  own p = Some (q, (k, PPart)) -> own l = Some (q, (k, PList)) -> pd_at (tabsd q k c p) own h [].
Proof. intros q k c p own h l G1 G2 O1 O2. exists l, []. split; [|exact Logic.I]. split; [split; [exact G1|exact G2]|]. split; assumption. Qed.
Lemma fresh_orders : forall q k c p own h l, get h p = Some (ppart c l []) -> get h l = Some (plist ", ") ->
  own p = Some (q, (k, PPart)) -> own l = Some (q, (k, PList)) -> pd_at (ordersd q k c p) own h [].
Proof. intros q k c p own h l G1 G2 O1 O2. exists l, []. split; [|exact Logic.I]. split; [split; [exact G1|exact G2]|]. split; assumption. Qed.
Lemma fresh_qobj : forall q c ks more d a own h b, get h q = Some (MkObj (OInst c) ((LAttr "_queryparts", RPtr d) :: entries ks a ++ more b)) -> own q = None ->
  get h d = Some (MkObj ODict (qdict ks a)) -> own d = Some (q, ("", PDict)) -> pd_at (qobjd q c ks more d a) own h b.
Proof. intros. repeat (split; [assumption|]). assumption. Qed.
Lemma fresh_opts : forall V q k c p (kvs : V -> list (string * string)) own h d x, get h p = Some (opart c d) -> own p = Some (q, (k, PPart)) ->
  get h d = Some (MkObj ODict (kv_refs (kvs x))) -> own d = Some (q, (k, PDict)) -> pd_at (optsd q k c p kvs) own h x.
Proof. intros V q k c p kvs own h d x A B C D. exists d. auto. Qed.
Ltac obj_at_n h i := exact (get_add h _ i).
Lemma new_sel_said : forall own h, inv own h -> exists own', after nothing nothing own h own' (h ++ sel_objs (List.length h)) /\ said QSelect (List.length h + 18) own' (h ++ sel_objs (List.length h)) (VSelect empty_select).
Proof.
  intros own h J. set (n := List.length h). exists (owned_by own n (n + 18) sel_slots). split.
  - eapply grows with (m := 18); [exact J|reflexivity|reflexivity|below|reflexivity|repeat constructor; discriminate|]. fold n. news.
  - exists ((n + 17, pick (sel_where n)), (false, (s_opts empty_select, ([], ([], ([], ([], ([], ([], (s_limit empty_select, ((fun _ => r_none), false))))))))))), empty_select. split; [reflexivity|].
    split; [|split].
    + split; [apply fresh_qobj; [exact (get_add h _ 18)|exact (owned_add own n _ _ 18)|exact (get_add h _ 17)|exact (owned_add own n _ _ 17)]|].
      split; [apply fresh_opts with (d := n + 11); [exact (get_add h _ 12)|exact (owned_add own n _ _ 12)|exact (get_add h _ 11)|exact (owned_add own n _ _ 11)]|].
      split; [apply fresh_conds with (l := n + 0); [exact (get_add h _ 1)|exact (get_add h _ 0)|exact (owned_add own n _ _ 1)|exact (owned_add own n _ _ 0)]|].
      split; [apply fresh_tabs with (l := n + 13); [exact (get_add h _ 14)|exact (get_add h _ 13)|exact (owned_add own n _ _ 14)|exact (owned_add own n _ _ 13)]|].
      split; [apply fresh_conds with (l := n + 15); [exact (get_add h _ 16)|exact (get_add h _ 15)|exact (owned_add own n _ _ 16)|exact (owned_add own n _ _ 15)]|].
      split; [apply fresh_orders with (l := n + 2); [exact (get_add h _ 3)|exact (get_add h _ 2)|exact (owned_add own n _ _ 3)|exact (owned_add own n _ _ 2)]|].
      split; [apply fresh_conds with (l := n + 4); [exact (get_add h _ 5)|exact (get_add h _ 4)|exact (owned_add own n _ _ 5)|exact (owned_add own n _ _ 4)]|].
      split; [apply fresh_orders with (l := n + 8); [exact (get_add h _ 9)|exact (get_add h _ 8)|exact (owned_add own n _ _ 9)|exact (owned_add own n _ _ 8)]|].
      split; [split; [exact (get_add h _ 7)|exact (owned_add own n _ _ 7)]|].
      split; [split; [exact (get_add h _ 6)|split; [exact (owned_add own n _ _ 6)|intros; exact Logic.I]]|].
      split; [exact (get_add h _ 10)|exact (owned_add own n _ _ 10)].
    + repeat (split; [first [reflexivity|solve [repeat split; reflexivity]|solve [constructor]]|]). reflexivity.
    + repeat constructor; intros R; apply reach_atom in R; discriminate.
Qed.
Lemma new_ins_said : forall own h, inv own h -> exists own', after nothing nothing own h own' (h ++ ins_objs (List.length h)) /\ said QInsert (List.length h + 12) own' (h ++ ins_objs (List.length h)) (VInsert empty_insert).
Proof.
  intros own h J. set (n := List.length h). exists (owned_by own n (n + 12) ins_slots). split.
  - eapply grows with (m := 12); [exact J|reflexivity|reflexivity|below|reflexivity|repeat constructor; discriminate|]. fold n. news.
  - exists ((n + 11, pick (ins_where n)), (false, (false, (false, ([], ([], ([], (astr "", []))))))) ), empty_insert. split; [reflexivity|].
    split; [|split].
    + split; [apply fresh_qobj; [exact (get_add h _ 12)|exact (owned_add own n _ _ 12)|exact (get_add h _ 11)|exact (owned_add own n _ _ 11)]|].
      split; [split; [exact (get_add h _ 2)|exact (owned_add own n _ _ 2)]|].
      split; [apply fresh_opts with (d := n + 0); [exact (get_add h _ 1)|exact (owned_add own n _ _ 1)|exact (get_add h _ 0)|exact (owned_add own n _ _ 0)]|].
      split; [apply fresh_tabs with (l := n + 7); [exact (get_add h _ 8)|exact (get_add h _ 7)|exact (owned_add own n _ _ 8)|exact (owned_add own n _ _ 7)]|].
      split; [apply fresh_conds with (l := n + 9); [exact (get_add h _ 10)|exact (get_add h _ 9)|exact (owned_add own n _ _ 10)|exact (owned_add own n _ _ 9)]|].
      split; [apply fresh_conds with (l := n + 5); [exact (get_add h _ 6)|exact (get_add h _ 5)|exact (owned_add own n _ _ 6)|exact (owned_add own n _ _ 5)]|].
      split; [exact Logic.I|]. apply fresh_conds with (l := n + 3); [exact (get_add h _ 4)|exact (get_add h _ 3)|exact (owned_add own n _ _ 4)|exact (owned_add own n _ _ 3)].
    + repeat (split; [first [reflexivity|solve [repeat split; reflexivity]|solve [constructor]]|]). constructor.
    + repeat constructor; intros R; apply reach_atom in R; discriminate.
Qed.
Lemma new_upd_said : forall own h, inv own h -> exists own', after nothing nothing own h own' (h ++ upd_objs (List.length h)) /\ said QUpdate (List.length h + 9) own' (h ++ upd_objs (List.length h)) (VUpdate empty_update).
Proof.
  intros own h J. set (n := List.length h). exists (owned_by own n (n + 9) upd_slots). split.
  - eapply grows with (m := 9); [exact J|reflexivity|reflexivity|below|reflexivity|repeat constructor; discriminate|]. fold n. news.
  - exists ((n + 8, pick (upd_where n)), (false, (false, ([], ([], []))))), empty_update. split; [reflexivity|].
    split; [|split].
    + split; [apply fresh_qobj; [exact (get_add h _ 9)|exact (owned_add own n _ _ 9)|exact (get_add h _ 8)|exact (owned_add own n _ _ 8)]|].
      split; [apply fresh_opts with (d := n + 2); [exact (get_add h _ 3)|exact (owned_add own n _ _ 3)|exact (get_add h _ 2)|exact (owned_add own n _ _ 2)]|].
      split; [apply fresh_tabs with (l := n + 0); [exact (get_add h _ 1)|exact (get_add h _ 0)|exact (owned_add own n _ _ 1)|exact (owned_add own n _ _ 0)]|].
      split; [apply fresh_conds with (l := n + 4); [exact (get_add h _ 5)|exact (get_add h _ 4)|exact (owned_add own n _ _ 5)|exact (owned_add own n _ _ 4)]|].
      apply fresh_conds with (l := n + 6); [exact (get_add h _ 7)|exact (get_add h _ 6)|exact (owned_add own n _ _ 7)|exact (owned_add own n _ _ 6)].
    + repeat (split; [first [reflexivity|solve [repeat split; reflexivity]|solve [constructor]]|]). constructor.
    + constructor.
Qed.
Lemma new_del_said : forall own h, inv own h -> exists own', after nothing nothing own h own' (h ++ del_objs (List.length h)) /\ said QDelete (List.length h + 9) own' (h ++ del_objs (List.length h)) (VDelete empty_delete).
Proof.
  intros own h J. set (n := List.length h). exists (owned_by own n (n + 9) del_slots). split.
  - eapply grows with (m := 9); [exact J|reflexivity|reflexivity|below|reflexivity|repeat constructor; discriminate|]. fold n. news.
  - exists ((n + 8, pick (del_where n)), (false, (false, ([], ([], []))))), empty_delete. split; [reflexivity|].
    split; [|split].
    + split; [apply fresh_qobj; [exact (get_add h _ 9)|exact (owned_add own n _ _ 9)|exact (get_add h _ 8)|exact (owned_add own n _ _ 8)]|].
      split; [apply fresh_opts with (d := n + 0); [exact (get_add h _ 1)|exact (owned_add own n _ _ 1)|exact (get_add h _ 0)|exact (owned_add own n _ _ 0)]|].
      split; [apply fresh_tabs with (l := n + 4); [exact (get_add h _ 5)|exact (get_add h _ 4)|exact (owned_add own n _ _ 5)|exact (owned_add own n _ _ 4)]|].
      split; [apply fresh_tabs with (l := n + 2); [exact (get_add h _ 3)|exact (get_add h _ 2)|exact (owned_add own n _ _ 3)|exact (owned_add own n _ _ 2)]|].
      apply fresh_conds with (l := n + 6); [exact (get_add h _ 7)|exact (get_add h _ 6)|exact (owned_add own n _ _ 7)|exact (owned_add own n _ _ 6)].
    + repeat (split; [first [reflexivity|solve [repeat split; reflexivity]|solve [constructor]]|]). constructor.
    + constructor.
Qed.
Lemma new_said : forall k own h h' r, inv own h -> new_of k h = (h', r) -> exists q own' l, r = Ok q /\ h' = h ++ l /\ List.length h <= q /\ after nothing nothing own h own' h' /\ said k q own' h' (empty_of k).
Proof.
  intros k own h h' r J R. destruct k; cbn [new_of empty_of] in *.
  - rewrite new_select_is in R. injection R as <- <-. destruct (new_sel_said own h J) as (own' & A & S). eexists _, own', _. split; [reflexivity|]. split; [reflexivity|]. split; [lia|]. auto.
  - rewrite new_insert_is in R. injection R as <- <-. destruct (new_ins_said own h J) as (own' & A & S). eexists _, own', _. split; [reflexivity|]. split; [reflexivity|]. split; [lia|]. auto.
  - rewrite new_update_is in R. injection R as <- <-. destruct (new_upd_said own h J) as (own' & A & S). eexists _, own', _. split; [reflexivity|]. split; [reflexivity|]. split; [lia|]. auto.
  - rewrite new_delete_is in R. injection R as <- <-. destruct (new_del_said own h J) as (own' & A & S). eexists _, own', _. split; [reflexivity|]. split; [reflexivity|]. split; [lia|]. auto.
Qed.
