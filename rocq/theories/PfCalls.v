(** Lemmas: the methods of whole queries. *)
From Coq Require Import Lia.
From Verif Require Import Base NumFmt Value Backend Eq Render ParseArgs Build Queries Heap SpecHeap PfHeap PfHeapAlike PfHeapFrame PfHeapView HeapBuild SpecShare PfShare PfOwn PfParts PfNewItems PfMethods PfLayout PfOrders PfTables PfJoins HeapShow PfShow PfCells PfConflict PfQueries.
Open Scope nat_scope.
Local Arguments view : simpl never.

(** ** Layouts seen another way *)
Definition mapd {L V U} (f : U -> V) (P : partd L V) : partd L U := MkPartd (pd_at P) (fun h x u => pd_val P h x (f u)) (pd_refs P).
Definition packd {I L V} (P : I -> partd L V) : partd (I * L) V :=
  MkPartd (fun own h x => pd_at (P (fst x)) own h (snd x)) (fun h x v => pd_val (P (fst x)) h (snd x) v) (fun x => pd_refs (P (fst x)) (snd x)).
Lemma acts_map : forall L V U (f : U -> V) (P : partd L V) G C q own h x h' o (K : V -> V * outcome -> Prop) (K' : U -> U * outcome -> Prop),
  acts P G C q own h x h' o K -> (forall u y, K' u y -> exists z, K (f u) z /\ fst z = f (fst y) /\ snd z = snd y) -> acts (mapd f P) G C q own h x h' o K'.
Proof.
  intros L V U f P G C q own h x h' o K K' (own' & x' & A & B & D) H. exists own', x'. split; [exact A|]. split; [exact B|].
  intros NG u y KK PV AV. destruct (H u y KK) as (z & Kz & E1 & E2). destruct (D NG (f u) z Kz PV AV) as (R1 & R2 & R3). cbn [mapd pd_val pd_refs]. rewrite <- E1, <- E2. auto.
Qed.
Lemma acts_pack : forall I L V (P : I -> partd L V) G C q own h i x h' o (K : V -> V * outcome -> Prop),
  acts (P i) G C q own h x h' o K -> acts (packd P) G C q own h (i, x) h' o K.
Proof. intros I L V P G C q own h i x h' o K (own' & x' & A & B & D). exists own', (i, x'). split; [exact A|]. split; [exact B|exact D]. Qed.
Lemma acts_whole : forall L V (P : partd L V) G k q own h x h' o (K : V -> V * outcome -> Prop),
  acts P G (fun own => at_slot own q k) q own h x h' o K -> acts P G (fun own => whole own q) q own h x h' o K.
Proof.
  intros L V P G k q own h x h' o K (own' & x' & A & B & D). exists own', x'. split; [|auto]. eapply after_more; [| |exact A]; [auto|apply slot_whole].
Qed.
Lemma good_map : forall L V U (f : U -> V) (P : partd L V) q S, good P q S -> good (mapd f P) q S.
Proof. intros L V U f P q S [A B C]. split; [exact A|exact B|]. intros own h h' x v PA. exact (C own h h' x (f v) PA). Qed.
Lemma good_pack : forall I L V (P : I -> partd L V) q S, (forall i, good (P i) q S) -> good (packd P) q S.
Proof.
  intros I L V P q S H. split.
  - intros own h [i x] own' h'. exact (g_frame _ _ _ (H i) own h x own' h').
  - intros own h [i x]. exact (g_okr _ _ _ (H i) own h x).
  - intros own h h' [i x] v. exact (g_val _ _ _ (H i) own h h' x v).
Qed.
Lemma good_more : forall L V (P : partd L V) q (S S' : option string -> Prop), good P q S -> (forall k, S k -> S' k) -> good P q S'.
Proof. intros L V P q S S' [A B C] H. split; [|exact B|exact C]. intros own h x own' h' K F. apply A; [exact K|]. intros p k Sk. apply F. auto. Qed.

(** ** from_table *)
Lemma from_table_spec : forall W G q k cq c p own h ts t a h' o, inv own h -> own q = None -> kind_of h q = Some (OInst cq) ->
  pd_at (tabsd q k c p) own h ts -> okr own h t -> okr own h a -> in_tuple t a (fun x => h_tables W (RPtr p) [x] []) h = (h', o) ->
  acts (tabsd q k c p) G (fun own => cell own q k) q own h ts h' o (fun v y => exists vt va, stands h t vt /\ stands h a va /\ avoids h q t /\ avoids h q a /\
    y = tables_set W v [VSeq KTuple [vt; va]] []).
Proof.
  intros W G q k cq c p own h ts t a h' o J NQ KQ PT Ot Oa R. unfold in_tuple, alloc in R. unfold hbind at 1 in R.
  set (h1 := h ++ [MkObj OTuple [(LItem, t); (LItem, a)]]) in *.
  destruct (after_alloc G (cell own q k) own h OTuple [(LItem, t); (LItem, a)] J) as [A1 O1]. { intros b r [E|[E|[]]]; injection E as <- <-; assumption. }
  fold h1 in A1, O1. pose proof (inv_after _ _ _ _ _ _ A1) as J1.
  assert (F1 : forall y, y < List.length h -> get h1 y = get h y) by (intros y L; apply get_old; exact L).
  assert (PT1 : pd_at (tabsd q k c p) own h1 ts).
  { eapply (g_frame _ _ _ (good_tabs q k c p)); [apply A1| |exact PT]. intros y kk E AT. unfold key in E. subst kk. destruct AT as [s AT]. apply F1. eapply owned_lt; eauto. }
  assert (KO1 : kokr own h1 [RPtr (List.length h)] []) by (split; auto).
  assert (KQ1 : kind_of h1 q = Some (OInst cq)) by (apply A1; exact KQ).
  destruct (h_tables_spec W G q k cq c p own h1 ts [RPtr (List.length h)] [] h' o J1 NQ KQ1 PT1 KO1 R) as (own2 & x2 & A2 & P2 & V2).
  exists own2, x2. split; [eapply after_cells; eauto|]. split; [exact P2|].
  intros NG v y (vt & va & St & Sa & At & Aa & ->) PV AX.
  assert (AW : after nothing (whole own q) own h own h1). { eapply after_more; [| |exact A1]; [intros z Z; exact (NG z Z)|apply whole_cell]. }
  assert (KS : forall z, okr own h z -> avoids h q z -> avoids h1 q z) by (intros z Oz Az; apply (kept_whole own q h own h1 z); auto).
  assert (KT : forall z w, okr own h z -> avoids h q z -> stands h z w -> stands h1 z w).
  { intros z w Oz Az. apply frame_stands; [apply J|eapply okr_valid; eauto|apply (kept_whole own q h own h1 z); auto]. }
  pose proof (g_okr _ _ _ (good_tabs q k c p) own h ts PT) as OX.
  apply V2 with (v := v); [exact NG| | |].
  - exists [VSeq KTuple [vt; va]], []. split; [|split; [constructor|split; [|reflexivity]]].
    + constructor; [|constructor]. apply body_stands. unfold d_body, obj_at. unfold h1 at 1. rewrite get_new. cbn [bind o_kind o_refs items_of filter map].
      assert (E : mapM (view h1) [t; a] = Ok [vt; va]) by (apply views; constructor; [auto|constructor; [auto|constructor]]).
      change (rmap (VSeq KTuple) (mapM (view h1) [t; a]) = Ok (VSeq KTuple [vt; va])). rewrite E. reflexivity.
    + split; [|constructor]. constructor; [|constructor]. intros Y. inversion Y as [|? r ? Hr Y1]; subst.
      * apply q_lt in KQ. lia.
      * destruct (refers_app _ _ _ _ _ Hr) as [(_ & b & I)|X]; [|apply refers_lt in X; lia]. destruct I as [I|[I|[]]]; injection I as <- <-; [exact (KS t Ot At Y1)|exact (KS a Oa Aa Y1)].
  - eapply (g_val _ _ _ (good_tabs q k c p) own h); [exact PT|apply J|eapply Forall_impl; [|exact OX]; intros; eapply okr_valid; eauto| |exact PV].
    rewrite Forall_forall in OX, AX. intros r z I. apply (kept_whole own q h own h1 r); auto.
  - rewrite Forall_forall in *. intros r I. apply KS; auto.
Qed.

(** ** Options *)
Lemma selopt_spec : forall (G : addr -> Prop) q k p own h x ok b h' o, inv own h -> pd_at (optsd q k CSelectOptions p sel_kvs) own h x -> h_option (RPtr p) (selopt_entry ok b) h = (h', o) ->
  acts (optsd q k CSelectOptions p sel_kvs) G (fun own => cell own q k) q own h x h' o (fun v y => y = (set_selopt v ok b, Ok tt)).
Proof.
  intros G q k p own h x ok b h' o J PA R. eapply option_spec with (x' := set_selopt x ok b) (e := selopt_entry ok b); eauto. destruct x, ok, b; reflexivity.
Qed.
Lemma ignore_spec : forall (G : addr -> Prop) q k c p own h x b h' o, inv own h -> pd_at (optsd q k c p ign_kvs) own h x -> h_ignore (RPtr p) b h = (h', o) ->
  acts (optsd q k c p ign_kvs) G (fun own => cell own q k) q own h x h' o (fun v y => y = (b, Ok tt)).
Proof. intros G q k c p own h x b h' o J PA R. eapply option_spec with (x' := b); eauto. destruct x, b; reflexivity. Qed.
(** A method that looks at the truth of its argument. *)
Lemma truth_spec : forall L V (P : partd L V) (G : addr -> Prop) C q own h x r (f : bool -> hm unit) h' o (K : bool -> V -> V * outcome -> Prop), inv own h -> pd_at P own h x ->
  (doh v <- look (fun h => view h r); f (truthy v)) h = (h', o) -> (forall b, f b h = (h', o) -> acts P G C q own h x h' o (K b)) ->
  acts P G C q own h x h' o (fun v y => exists vr, stands h r vr /\ K (truthy vr) v y).
Proof.
  intros L V P G C q own h x r f h' o K J PA R H. unfold hbind, look in R. destruct (view h r) as [v|e] eqn:E.
  - eapply acts_more; [apply (H _ R)|]. intros _ w y (vr & S & KK) _. apply stands_view in S. rewrite E in S. injection S as <-. exact KK.
  - injection R as <- <-. apply acts_same; auto. intros _ w y (vr & S & _) _. apply stands_view in S. congruence.
Qed.

(** ** Select *)
Definition sel_keys : list string := ["columns"; "group_by"; "having"; "into_outfile"; "limit"; "order_by"; "select_for_update"; "select_options"; "tables"; "where"].
Definition none_more (b : bool) : list (label * ref) := [].
Definition selP (q : addr) (i : addr * (string -> addr)) :=
  let a := snd i in
  prodd (qobjd q CSelect sel_keys none_more (fst i) a) (prodd (optsd q "select_options" CSelectOptions (a "select_options") sel_kvs)
  (prodd (condsd see_column q "columns" CColumns ", " [] (a "columns")) (prodd (tabsd q "tables" CTablesForSelect (a "tables"))
  (prodd (condsd view q "where" CWhere " AND " [] (a "where")) (prodd (ordersd q "group_by" CGroupBy (a "group_by"))
  (prodd (condsd view q "having" CHaving " AND " [] (a "having")) (prodd (ordersd q "order_by" COrderBy (a "order_by"))
  (prodd (limd q "limit" (a "limit")) (prodd (outd q "into_outfile" (a "into_outfile")) (boold q "select_for_update" CSelectForUpdate "_for_update" (a "select_for_update"))))))))))).
Definition sel_t (s : selq val) := (false, (s_opts s, (s_cols s, (s_tabs s, (s_where s, (s_group s, (s_having s, (s_order s, (s_limit s, (s_out s, s_forupd s)))))))))).
Definition seld (q : addr) := mapd sel_t (packd (selP q)).

Ltac goods := repeat first [ apply good_prod | apply good_qobj | apply good_opts | apply good_cell | apply good_tabs | apply good_orders | apply good_out | apply good_conflict
  | apply (good_conds _ _ _ _ _ _ _ _ column_frame) | apply (good_conds _ _ _ _ _ _ _ _ view_frame) | apply (good_conds _ _ _ _ _ _ _ _ (fun h h' r => see_frame h h' CValues r)) ].
Lemma good_sel : forall q, good (seld q) q (fun _ => True).
Proof. intros q. apply good_map, good_pack. intros i. eapply good_more; [unfold selP; goods|]. auto. Qed.
Ltac other := unfold key; cbn; intuition discriminate.
Ltac snd_of := eapply acts_snd; [solve [goods]|solve [other]|eassumption|eassumption|eassumption|eassumption|eassumption|].
Ltac fst_of := eapply acts_fst; [solve [goods]|solve [other]|eassumption|eassumption|eassumption|eassumption|repeat (split; [eassumption|]); eassumption|].
Lemma kokr_app : forall own h a (k : rkwargs), Forall (okr own h) (a ++ map snd k) -> kokr own h a k.
Proof. intros own h a k F. apply Forall_app in F. destruct F as [A B]. split; [exact A|]. clear A. induction k; [constructor|]. inversion B; subst. constructor; auto. Qed.
Lemma kgin_app : forall G h a (k : rkwargs), Forall (gin G h) (a ++ map snd k) -> kgin G h a k.
Proof. intros G h a k F. apply Forall_app in F. destruct F as [A B]. split; [exact A|]. clear A. induction k; [constructor|]. inversion B; subst. constructor; auto. Qed.
Lemma kavoids_app : forall h q a (k : rkwargs), Forall (avoids h q) (a ++ map snd k) -> kavoids h q a k.
Proof. intros h q a k F. apply Forall_app in F. destruct F as [A B]. split; [exact A|]. clear A. induction k; [constructor|]. inversion B; subst. constructor; auto. Qed.
Lemma conds_acts : forall A (see : heap -> ref -> res A) (G : addr -> Prop) q k cq c sep more p own h x args kwds (m : list ref -> rkwargs -> hm unit) (f : list A -> list val -> kwargs -> list A * outcome) h' o,
  (forall own h l items h' o, ~ G p -> ~ G l -> inv own h -> parts_at h c sep more p l items -> Forall (okr own h) items ->
    kokr own h args kwds -> kgin G h args kwds -> m args kwds h = (h', o) ->
    added see G own h c sep more p l items h' o (fun C xs y => exists vs vk, Forall2 (stands h) args vs /\ Forall2 (kw_stands h) kwds vk /\ kcalm C h args kwds /\ y = f xs vs vk)) ->
  inv own h -> usable own h G -> kind_of h q = Some (OInst cq) -> pd_at (condsd see q k c sep more p) own h x ->
  kokr own h args kwds -> kgin G h args kwds -> m args kwds h = (h', o) ->
  acts (condsd see q k c sep more p) G (fun own => cell own q k) q own h x h' o
    (fun v y => exists vs vk, Forall2 (stands h) args vs /\ Forall2 (kw_stands h) kwds vk /\ kavoids h q args kwds /\ y = f v vs vk).
Proof.
  intros A see G q k cq c sep more p own h x args kwds m f h' o H J U KQ (l & (P & OP & OL) & OI) KO KG R.
  assert (NGp : ~ G p) by (intros Z; exact (usable_own _ _ _ _ _ U OP Z)). assert (NGl : ~ G l) by (intros Z; exact (usable_own _ _ _ _ _ U OL Z)).
  pose proof (H own h l x h' o NGp NGl J P OI KO KG R) as AD. apply (added_acts _ see G own q k cq) in AD; auto; [|split; auto].
  eapply acts_more; [exact AD|]. intros _ v y (vs & vk & S1 & S2 & AV & ->) _. exists vs, vk. split; [exact S1|]. split; [exact S2|]. split; [apply kcalm_avoids; auto|reflexivity].
Qed.
Lemma where_acts : forall W (G : addr -> Prop) q k cq c sep more p own h x args kwds h' o, inv own h -> usable own h G -> kind_of h q = Some (OInst cq) ->
  pd_at (condsd view q k c sep more p) own h x -> kokr own h args kwds -> kgin G h args kwds -> h_where W KWhere (RPtr p) args kwds h = (h', o) ->
  acts (condsd view q k c sep more p) G (fun own => cell own q k) q own h x h' o
    (fun v y => exists vs vk, Forall2 (stands h) args vs /\ Forall2 (kw_stands h) kwds vk /\ kavoids h q args kwds /\ y = conds_where W KWhere v vs vk).
Proof.
  intros W G q k cq c sep more p own h x args kwds h' o J U KQ PA KO KG R. eapply conds_acts with (m := h_where W KWhere (RPtr p)) (f := conds_where W KWhere); eauto.
  intros own0 h0 l items h1 o1 NP NL J0 P OI KO0 KG0 R0. exact (h_where_spec W KWhere G own0 c sep more p l h0 items args kwds h1 o1 (or_introl eq_refl) NP NL J0 P OI KO0 KG0 R0).
Qed.
Lemma columns_acts : forall W (G : addr -> Prop) q k cq c sep more p own h x args kwds h' o, inv own h -> usable own h G -> kind_of h q = Some (OInst cq) ->
  pd_at (condsd see_column q k c sep more p) own h x -> kokr own h args kwds -> kgin G h args kwds -> h_columns W (RPtr p) args kwds h = (h', o) ->
  acts (condsd see_column q k c sep more p) G (fun own => cell own q k) q own h x h' o
    (fun v y => exists vs vk, Forall2 (stands h) args vs /\ Forall2 (kw_stands h) kwds vk /\ kavoids h q args kwds /\ y = columns_add W v vs vk).
Proof.
  intros W G q k cq c sep more p own h x args kwds h' o J U KQ PA KO KG R. eapply conds_acts with (m := h_columns W (RPtr p)) (f := columns_add W); eauto.
  intros own0 h0 l items h1 o1 NP NL J0 P OI KO0 KG0 R0. exact (h_columns_spec W G own0 c sep more p l h0 items args kwds h1 o1 NP NL J0 P OI KO0 KG0 R0).
Qed.
Lemma set_acts : forall W (G : addr -> Prop) q k cq c sep more p own h x args kwds h' o, inv own h -> usable own h G -> kind_of h q = Some (OInst cq) ->
  pd_at (condsd view q k c sep more p) own h x -> kokr own h args kwds -> kgin G h args kwds -> h_set W (RPtr p) args kwds h = (h', o) ->
  acts (condsd view q k c sep more p) G (fun own => cell own q k) q own h x h' o
    (fun v y => exists vs vk, Forall2 (stands h) args vs /\ Forall2 (kw_stands h) kwds vk /\ kavoids h q args kwds /\ y = values_set W v vs vk).
Proof.
  intros W G q k cq c sep more p own h x args kwds h' o J U KQ PA KO KG R. eapply conds_acts with (m := h_set W (RPtr p)) (f := values_set W); eauto.
  intros own0 h0 l items h1 o1 NP NL J0 P OI KO0 KG0 R0. exact (h_set_spec W G own0 c sep more p l h0 items args kwds h1 o1 NP NL J0 P OI KO0 KG0 R0).
Qed.
Lemma at_part_at : forall q c ks more d a own h b k f, pd_at (qobjd q c ks more d a) own h b ->
  find_attr (String.append "_" k) ((LAttr "_queryparts", RPtr d) :: entries ks a ++ more b) = Ok (RPtr (a k)) -> at_part (String.append "_" k) q f h = f (RPtr (a k)) h.
Proof. intros q c ks more d a own h b k f PA E. unfold at_part, hbind, look. rewrite (part_ref _ _ _ _ _ _ _ _ _ _ PA E). reflexivity. Qed.
Ltac go_part PQ k R := rewrite (at_part_at _ _ _ _ _ _ _ _ _ k _ PQ eq_refl) in R; cbv beta in R.
Ltac outer k := eapply acts_map; [apply acts_pack; eapply (acts_whole _ _ _ _ (Some k)); unfold selP; cbn [fst snd]|].
(** The value side: which part becomes what. *)
Ltac deep := repeat match goal with |- @ex (prod _ _) _ => eexists; split; [|reflexivity] end.
Ltac done := cbn [fst snd]; unfold lift1; repeat match goal with |- context [let (_, _) := ?x in _] => destruct x end; split; reflexivity.

(** join with any argument: a dictionary of one entry is used up. *)
Definition eaten (G : addr -> Prop) (h : heap) (a : ref) : Prop := forall d, a = RPtr d -> one_entry h a <> None -> G d.
Lemma h_join_any : forall W ty (G : addr -> Prop) q k cq c p own h ts arg h' o, inv own h -> usable own h G -> own q = None -> kind_of h q = Some (OInst cq) ->
  pd_at (tabsd q k c p) own h ts -> okr own h arg -> eaten G h arg -> h_join W ty (RPtr p) arg h = (h', o) ->
  acts (tabsd q k c p) G (fun own => cell own q k) q own h ts h' o
    (fun v y => exists va, stands h arg va /\ avoids h q arg /\ y = tables_join W ty v va).
Proof.
  intros W ty G q k cq c p own h ts arg h' o J U NQ KQ PT OK EA R. destruct (one_entry h arg) as [[n a]|] eqn:E; [|eapply h_join_plain; eauto].
  destruct arg as [x|d]; [discriminate|]. assert (GD : G d) by (apply (EA d eq_refl); congruence).
  unfold one_entry, dict_at in E. destruct (get h d) as [[kd l]|] eqn:D; [|discriminate]. destruct kd; try discriminate.
  assert (PL : pairs_of l = [(n, a)]) by (destruct (pairs_of l) as [|? [|]]; try discriminate; injection E as ->; reflexivity).
  destruct (h_join_dict _ _ _ _ _ _ _ _ _ _ _ _ _ _ _ J (proj2 OK) PT D PL R) as [(-> & e & -> & _)|[RR _]].
  { apply acts_same; auto. intros NG. exfalso. exact (NG d GD). }
  set (h1 := put h d (MkObj ODict [])) in *.
  assert (A1 : after G (cell own q k) own h own h1) by (eapply after_write; [exact J|exact D|left; exact GD|intros ? ? []]).
  assert (PT1 : pd_at (tabsd q k c p) own h1 ts).
  { eapply (g_frame _ _ _ (good_tabs q k c p)); [exact (proj1 A1)| |exact PT]. intros x kk _ AT. unfold h1. apply get_put_other. intros ->. apply slot_whole in AT.
    destruct AT as [->|[s OS]]; [unfold kind_of in KQ; rewrite D in KQ; discriminate|destruct OK as [_ N]; congruence]. }
  assert (NA : okr own h n /\ okr own h a).
  { destruct (pairs_in l n a) as [[b1 I1] [b2 I2]]; [rewrite PL; left; reflexivity|].
    split; (eapply (el_part _ _ (okr_elements _ _ J)); [exact OK|exact D|discriminate|]); eauto. }
  destruct NA as [ON OA].
  eapply (join_new_spec ty G q k cq c p own h1 ts n a) in RR; [|apply A1|exact NQ|apply A1; exact KQ|exact PT1|eapply okr_keeps; [apply A1|exact ON]|eapply okr_keeps; [apply A1|exact OA]].
  destruct RR as (own' & x' & A2 & P2 & _). exists own', x'. split; [eapply after_trans; eauto|]. split; [exact P2|]. intros NG. exfalso. exact (NG d GD).
Qed.

Lemma sel_call_acts : forall W (G : addr -> Prop) q own h x op h' o, inv own h -> usable own h G -> pd_at (seld q) own h x ->
  Forall (okr own h) (sel_refs op) -> Forall (gin G h) (sel_refs op) -> (forall ty a, op = HSJoin ty a -> eaten G h a) -> h_sel_call W q op h = (h', o) ->
  acts (seld q) G (fun own => whole own q) q own h x h' o (fun v y => exists op', sel_stands h op op' /\ Forall (avoids h q) (sel_refs op) /\ y = sel_step W v op').
Proof.
  intros W G q own h [[d a] (b & x1 & x2 & x3 & x4 & x5 & x6 & x7 & x8 & x9 & x10)] op h' o J U PA OR GR JN R.
  destruct PA as (PQ & P1 & P2 & P3 & P4 & P5 & P6 & P7 & P8 & P9 & P10). cbn [fst snd] in *. destruct (qobj_kind _ _ _ _ _ _ _ _ _ PQ) as [KQ NQ].
  destruct op as [ar kw|ar kw|t al|ty ar|ar kw|ar kw|ar kw|ar kw|ar kw|l lo|lo|f ar|ok ar|ar]; cbn [h_sel_call sel_refs] in *.
  - go_part PQ "columns" R. outer "columns".
    + snd_of. snd_of. fst_of. eapply columns_acts; try exact R; eauto using kokr_app, kgin_app.
    + intros u y (op' & S & AV & ->). destruct op'; try contradiction. destruct S as [S1 S2]. eexists. split; [deep; exists args, kwds; split; [exact S1|split; [exact S2|split; [apply kavoids_app; exact AV|reflexivity]]]|]. cbn [sel_step]. done.
  - go_part PQ "tables" R. outer "tables".
    + snd_of. snd_of. snd_of. fst_of. eapply h_tables_spec; try exact R; eauto using kokr_app.
    + intros u y (op' & S & AV & ->). destruct op'; try contradiction. destruct S as [S1 S2]. eexists. split; [deep; exists args, kwds; split; [exact S1|split; [exact S2|split; [apply kavoids_app; exact AV|reflexivity]]]|]. cbn [sel_step]. done.
  - go_part PQ "tables" R. outer "tables".
    + snd_of. snd_of. snd_of. fst_of. inversion OR as [|? ? O1 OR1]; subst. inversion OR1; subst. eapply from_table_spec; try exact R; eauto.
    + intros u y (op' & S & AV & ->). destruct op'; try contradiction. inversion AV as [|? ? AV1 AV2]; subst. inversion AV2; subst. destruct S as [S1 S2]. eexists. split; [deep; eexists _, _; split; [exact S1|split; [exact S2|split; [assumption|split; [assumption|reflexivity]]]]|]. cbn [sel_step]. done.
  - go_part PQ "tables" R. outer "tables".
    + snd_of. snd_of. snd_of. fst_of. inversion OR; subst. eapply h_join_any; try exact R; eauto.
    + intros u y (op' & S & AV & ->). destruct op'; try contradiction. inversion AV as [|? ? AV1 AV2]; subst. destruct S as [-> S]. eexists. split; [deep; eexists; split; [exact S|split; [assumption|reflexivity]]|]. cbn [sel_step]. done.
  - go_part PQ "tables" R. outer "tables".
    + snd_of. snd_of. snd_of. fst_of. eapply h_on_spec; try exact R; eauto using kokr_app, kgin_app. intros y z E Y. exact (usable_own _ _ _ _ _ U E Y).
    + intros u y (op' & S & AV & ->). destruct op'; try contradiction. destruct S as [S1 S2]. eexists. split; [deep; exists args, kwds; split; [exact S1|split; [exact S2|split; [apply kavoids_app; exact AV|reflexivity]]]|]. cbn [sel_step]. done.
  - go_part PQ "where" R. outer "where".
    + snd_of. snd_of. snd_of. snd_of. fst_of. eapply where_acts; try exact R; eauto using kokr_app, kgin_app.
    + intros u y (op' & S & AV & ->). destruct op'; try contradiction. destruct S as [S1 S2]. eexists. split; [deep; exists args, kwds; split; [exact S1|split; [exact S2|split; [apply kavoids_app; exact AV|reflexivity]]]|]. cbn [sel_step]. done.
  - go_part PQ "having" R. outer "having".
    + snd_of. snd_of. snd_of. snd_of. snd_of. snd_of. fst_of. eapply where_acts; try exact R; eauto using kokr_app, kgin_app.
    + intros u y (op' & S & AV & ->). destruct op'; try contradiction. destruct S as [S1 S2]. eexists. split; [deep; exists args, kwds; split; [exact S1|split; [exact S2|split; [apply kavoids_app; exact AV|reflexivity]]]|]. cbn [sel_step]. done.
  - go_part PQ "group_by" R. outer "group_by".
    + snd_of. snd_of. snd_of. snd_of. snd_of. fst_of. eapply h_orders_spec; try exact R; eauto using kokr_app.
    + intros u y (op' & S & AV & ->). destruct op'; try contradiction. destruct S as [S1 S2]. eexists. split; [deep; exists args, kwds; split; [exact S1|split; [exact S2|split; [apply kavoids_app; exact AV|reflexivity]]]|]. cbn [sel_step]. done.
  - go_part PQ "order_by" R. outer "order_by".
    + snd_of. snd_of. snd_of. snd_of. snd_of. snd_of. snd_of. fst_of. eapply h_orders_spec; try exact R; eauto using kokr_app.
    + intros u y (op' & S & AV & ->). destruct op'; try contradiction. destruct S as [S1 S2]. eexists. split; [deep; exists args, kwds; split; [exact S1|split; [exact S2|split; [apply kavoids_app; exact AV|reflexivity]]]|]. cbn [sel_step]. done.
  - go_part PQ "limit" R. outer "limit".
    + snd_of. snd_of. snd_of. snd_of. snd_of. snd_of. snd_of. snd_of. fst_of. inversion OR as [|? ? O1 OR1]; subst. inversion OR1; subst. eapply h_limit_spec; try exact R; eauto.
    + intros u y (op' & S & AV & ->). destruct op'; try contradiction. inversion AV as [|? ? AV1 AV2]; subst. inversion AV2; subst. destruct S as [S1 S2]. eexists. split; [deep; eexists _, _; split; [exact S1|split; [exact S2|split; [assumption|reflexivity]]]|]. cbn [sel_step]. done.
  - go_part PQ "limit" R. outer "limit".
    + snd_of. snd_of. snd_of. snd_of. snd_of. snd_of. snd_of. snd_of. fst_of. eapply h_offset_spec; try exact R; eauto.
    + intros u y (op' & S & AV & ->). destruct op'; try contradiction. inversion AV as [|? ? AV1 AV2]; subst. eexists. split; [deep; eexists; split; [exact S|reflexivity]|]. cbn [sel_step]. done.
  - go_part PQ "into_outfile" R. outer "into_outfile".
    + snd_of. snd_of. snd_of. snd_of. snd_of. snd_of. snd_of. snd_of. snd_of. fst_of. inversion OR; subst. eapply h_out_spec; try exact R; eauto.
    + intros u y (op' & S & AV & ->). destruct op'; try contradiction. inversion AV as [|? ? AV1 AV2]; subst. destruct S as [-> S]. eexists. split; [deep; eexists; split; [exact S|split; [assumption|reflexivity]]|]. cbn [sel_step]. done.
  - go_part PQ "select_options" R. outer "select_options".
    + snd_of. fst_of. eapply truth_spec with (f := fun b => h_option _ (selopt_entry ok b)) (K := fun b v y => y = (set_selopt v ok b, Ok tt)); [eassumption|eassumption|exact R|]. intros bb RR. eapply selopt_spec; eauto.
    + intros u y (op' & S & AV & ->). destruct op'; try contradiction. inversion AV as [|? ? AV1 AV2]; subst. destruct S as [-> S]. eexists. split; [deep; eexists; split; [exact S|reflexivity]|]. cbn [sel_step]. done.
  - go_part PQ "select_for_update" R. outer "select_for_update".
    + snd_of. snd_of. snd_of. snd_of. snd_of. snd_of. snd_of. snd_of. snd_of. snd_of.  eapply truth_spec with (f := fun b => assign _ "_for_update" (abool b)) (K := fun b v y => y = (b, Ok tt)); [eassumption|eassumption|exact R|]. intros bb RR. eapply bool_spec; [eassumption|eassumption|exact RR|]. auto.
    + intros u y (op' & S & AV & ->). destruct op'; try contradiction. inversion AV as [|? ? AV1 AV2]; subst. eexists. split; [deep; eexists; split; [exact S|reflexivity]|]. cbn [sel_step]. done.
Qed.

(** ** Insert *)
Definition ins_keys : list string := ["insert_options"; "keyword"; "on_conflict_do_update"; "on_duplicate_key_update"; "tables"; "values"].
Definition insP (q : addr) (i : addr * (string -> addr)) :=
  let a := snd i in
  prodd (qobjd q CInsert ins_keys none_more (fst i) a) (prodd (boold q "keyword" CInsertKeyword "_is_replace" (a "keyword"))
  (prodd (optsd q "insert_options" CInsertOptions (a "insert_options") ign_kvs) (prodd (tabsd q "tables" CTables (a "tables"))
  (prodd (rowsd q "values" (a "values")) (prodd (condsd view q "on_duplicate_key_update" COnDuplicate ", " [] (a "on_duplicate_key_update"))
  (conflictd q "on_conflict_do_update" (a "on_conflict_do_update"))))))).
Definition ins_t (s : insq val) := let '(MkIns rp ig tabs rows dup cf up) := s in (false, (rp, (ig, (tabs, (rows, (dup, (cf, up))))))).
Definition insd (q : addr) := mapd ins_t (packd (insP q)).
Lemma good_ins : forall q, good (insd q) q (fun _ => True).
Proof. intros q. apply good_map, good_pack. intros i. eapply good_more; [unfold insP; goods|]. auto. Qed.
(** ** Update *)
Definition upd_keys : list string := ["tables"; "update_options"; "values"; "where"].
Definition updP (q : addr) (i : addr * (string -> addr)) :=
  let a := snd i in
  prodd (qobjd q CUpdate upd_keys (flagm "_allow_update_all") (fst i) a) (prodd (optsd q "update_options" CUpdateOptions (a "update_options") ign_kvs)
  (prodd (tabsd q "tables" CTables (a "tables")) (prodd (condsd view q "values" CValues ", " [] (a "values")) (condsd view q "where" CWhere " AND " [] (a "where"))))).
Definition upd_t (s : updq val) := let '(MkUpd ig tabs vals wh al) := s in (al, (ig, (tabs, (vals, wh)))).
Definition updd (q : addr) := mapd upd_t (packd (updP q)).
Lemma good_upd : forall q, good (updd q) q (fun _ => True).
Proof. intros q. apply good_map, good_pack. intros i. eapply good_more; [unfold updP; goods|]. auto. Qed.
(** ** Delete *)
Definition del_keys : list string := ["delete_options"; "references"; "tables"; "where"].
Definition delP (q : addr) (i : addr * (string -> addr)) :=
  let a := snd i in
  prodd (qobjd q CDelete del_keys (flagm "_allow_delete_all") (fst i) a) (prodd (optsd q "delete_options" CDeleteOptions (a "delete_options") ign_kvs)
  (prodd (tabsd q "tables" CTables (a "tables")) (prodd (tabsd q "references" CTables (a "references")) (condsd view q "where" CWhere " AND " [] (a "where"))))).
Definition del_t (s : delq val) := let '(MkDel ig tabs refs wh al) := s in (al, (ig, (tabs, (refs, wh)))).
Definition deld (q : addr) := mapd del_t (packd (delP q)).
Lemma good_del : forall q, good (deld q) q (fun _ => True).
Proof. intros q. apply good_map, good_pack. intros i. eapply good_more; [unfold delP; goods|]. auto. Qed.

Lemma hbind_ret : forall (m : hm unit) h, (hbind m (fun _ => hbind (hret tt) (fun _ => hret tt))) h = m h.
Proof. intros m h. unfold hbind, hret. destruct (m h) as [h' [[]|e]]; reflexivity. Qed.
Lemma hbind_ret' : forall (m : hm unit) h, (hbind m (fun _ => hret tt)) h = m h.
Proof. intros m h. unfold hbind, hret. destruct (m h) as [h' [[]|e]]; reflexivity. Qed.
Lemma hbind_ret2 : forall (m : hm unit) h, (hbind (hret tt) (fun _ => hbind m (fun _ => hret tt))) h = m h.
Proof. intros m h. unfold hbind, hret. destruct (m h) as [h' [[]|e]]; reflexivity. Qed.
Lemma is_nilb_same : forall A B (R : A -> B -> Prop) l l', Forall2 R l l' -> is_nilb l = is_nilb l'.
Proof. intros A B R l l' F. destruct F; reflexivity. Qed.
Lemma ins_call_acts : forall W (G : addr -> Prop) q own h x op h' o, inv own h -> usable own h G -> pd_at (insd q) own h x ->
  Forall (okr own h) (ins_refs op) -> Forall (gin G h) (ins_refs op) -> h_ins_call W q op h = (h', o) ->
  acts (insd q) G (fun own => whole own q) q own h x h' o (fun v y => exists op', ins_stands h op op' /\ Forall (avoids h q) (ins_refs op) /\ y = ins_step W v op').
Proof.
  intros W G q own h [[d a] (b & x1 & x2 & x3 & x4 & x5 & x6)] op h' o J U PA OR GR R.
  destruct PA as (PQ & P1 & P2 & P3 & P4 & P5 & P6). cbn [fst snd] in *. destruct (qobj_kind _ _ _ _ _ _ _ _ _ PQ) as [KQ NQ].
  destruct op as [t|ar kw|ar kw|ar]; cbn [h_ins_call ins_refs] in *.
  - go_part PQ "tables" R. outer "tables".
    + snd_of. snd_of. snd_of. fst_of. eapply h_tables_spec; try exact R; eauto. split; [exact OR|constructor].
    + intros [rp ig tabs rows dup cf up] y (op' & S & AV & ->). destruct op'; try contradiction. eexists. split; [deep; exists [t0], []; split; [constructor; [exact S|constructor]|split; [constructor|split; [split; [exact AV|constructor]|reflexivity]]]|]. cbn [ins_step ins_t]. done.
  - go_part PQ "values" R. outer "values".
    + snd_of. snd_of. snd_of. snd_of. fst_of. eapply h_add_row_spec; try exact R; eauto using kokr_app, kgin_app.
    + intros [rp ig tabs rows dup cf up] y (op' & S & AV & ->). destruct op'; try contradiction. destruct S as [S1 S2]. eexists. split; [deep; exists args, kwds; split; [exact S1|split; [exact S2|split; [apply kavoids_app; exact AV|reflexivity]]]|]. cbn [ins_step ins_t]. done.
  - destruct (e_be (w_env W)) eqn:BE; cbn [supports_on_duplicate_key_update supports_on_conflict_do_update supports_replace_into] in R.
    + injection R as <- <-. apply acts_same; [exact J|cbn; auto 10|]. intros _ [rp ig tabs rows dup cf up] y (op' & S & AV & ->) _. destruct op'; try contradiction. cbn [ins_step]. rewrite BE. reflexivity.
    + rewrite hbind_ret in R. go_part PQ "on_duplicate_key_update" R. outer "on_duplicate_key_update".
      * snd_of. snd_of. snd_of. snd_of. snd_of. fst_of. eapply set_acts; try exact R; eauto using kokr_app, kgin_app.
      * intros [rp ig tabs rows dup cf up] y (op' & S & AV & ->). destruct op'; try contradiction. destruct S as [S1 S2]. eexists. split; [deep; exists args, kwds; split; [exact S1|split; [exact S2|split; [apply kavoids_app; exact AV|reflexivity]]]|].
        cbn [ins_step ins_t]. rewrite BE. cbn [supports_on_duplicate_key_update supports_on_conflict_do_update supports_replace_into fst snd]. destruct (values_set W dup args kwds) as [v' [[]|?]]; split; reflexivity.
    + rewrite hbind_ret2 in R. go_part PQ "on_conflict_do_update" R. outer "on_conflict_do_update".
      * snd_of. snd_of. snd_of. snd_of. snd_of. snd_of. eapply h_conflict_spec; try exact R; eauto using kokr_app, kgin_app.
      * intros [rp ig tabs rows dup cf up] y (op' & S & AV & ->). destruct op'; try contradiction. destruct S as [S1 S2]. eexists. split; [deep; exists args, kwds; split; [exact S1|split; [exact S2|split; [apply kavoids_app; exact AV|reflexivity]]]|].
        cbn [ins_step ins_t]. rewrite BE. cbn [supports_on_duplicate_key_update supports_on_conflict_do_update supports_replace_into fst snd]. destruct (conflict_set W (cf, up) args kwds) as [[? ?] [[]|?]]; split; reflexivity.
    + unfold hbind at 1, hret at 1, hbind at 1, hret at 1 in R. destruct (negb (is_nilb ar) || negb (is_nilb kw)) eqn:NI.
      * injection R as <- <-. apply acts_same; [exact J|cbn; auto 10|]. intros _ [rp ig tabs rows dup cf up] y (op' & S & AV & ->) _. destruct op'; try contradiction. destruct S as [S1 S2]. cbn [ins_step]. rewrite BE.
        cbn [supports_on_duplicate_key_update supports_on_conflict_do_update supports_replace_into]. rewrite (is_nilb_same _ _ _ _ _ S1), (is_nilb_same _ _ _ _ _ S2) in NI. rewrite NI. reflexivity.
      * assert (ar = [] /\ kw = []) as [-> ->] by (destruct ar, kw; try discriminate; auto).
        assert (E1 : attr h "_queryparts" (RPtr q) = Ok (RPtr d)) by (unfold attr; cbn [obj_at]; rewrite (proj1 PQ); reflexivity).
        assert (E2 : lookup h "keyword" (RPtr d) = Ok (RPtr (a "keyword"))) by (unfold lookup, refs_at; cbn [obj_at]; rewrite (proj1 (proj2 (proj2 PQ))); reflexivity).
        unfold hbind at 1, look at 1 in R. rewrite E1 in R. unfold hbind at 1, look at 1 in R. rewrite E2 in R. outer "keyword".
        -- snd_of. fst_of. eapply bool_spec with (K := fun v y => y = (true, Ok tt)); eauto.
        -- intros [rp ig tabs rows dup cf up] y (op' & S & AV & ->). destruct op'; try contradiction. destruct S as [S1 S2]. inversion S1; inversion S2; subst. eexists. split; [deep; reflexivity|].
           cbn [ins_step ins_t]. rewrite BE. split; reflexivity.
  - go_part PQ "insert_options" R. outer "insert_options".
    + snd_of. snd_of. fst_of. eapply truth_spec with (f := fun b => h_ignore _ b) (K := fun b v y => y = (b, Ok tt)); [eassumption|eassumption|exact R|]. intros bb RR. eapply ignore_spec; eauto.
    + intros [rp ig tabs rows dup cf up] y (op' & S & AV & ->). destruct op'; try contradiction. eexists. split; [deep; eexists; split; [exact S|reflexivity]|]. cbn [ins_step ins_t]. done.
Qed.

Lemma upd_call_acts : forall W (G : addr -> Prop) q own h x op h' o, inv own h -> usable own h G -> pd_at (updd q) own h x ->
  Forall (okr own h) (upd_refs op) -> Forall (gin G h) (upd_refs op) -> (forall ty a, op = HUJoin ty a -> eaten G h a) -> h_upd_call W q op h = (h', o) ->
  acts (updd q) G (fun own => whole own q) q own h x h' o (fun v y => exists op', upd_stands h op op' /\ Forall (avoids h q) (upd_refs op) /\ y = upd_step W v op').
Proof.
  intros W G q own h [[d a] (b & x1 & x2 & x3 & x4)] op h' o J U PA OR GR JN R.
  destruct PA as (PQ & P1 & P2 & P3 & P4). cbn [fst snd] in *. destruct (qobj_kind _ _ _ _ _ _ _ _ _ PQ) as [KQ NQ].
  assert (MI : forall k, In k upd_keys -> exists s, own (a k) = Some (q, s)) 
    by (intros k IK; cbn in IK; destruct IK as [<-|[<-|[<-|[<-|[]]]]]; [destruct P2 as (? & ? & (? & OW & ?) & ?)|destruct P1 as (? & ? & OW & ?)|destruct P3 as (? & (? & OW & ?) & ?)|destruct P4 as (? & (? & OW & ?) & ?)]; eexists; exact OW).
  destruct op as [t|ar kw|ar kw|ty ar|ar kw| | |ar]; cbn [h_upd_call upd_refs] in *.
  - go_part PQ "tables" R. outer "tables".
    + snd_of. snd_of. fst_of. eapply h_tables_spec; try exact R; eauto. split; [exact OR|constructor].
    + intros [ig tabs vals wh al] y (op' & S & AV & ->). destruct op'; try contradiction. eexists. split; [deep; exists [t0], []; split; [constructor; [exact S|constructor]|split; [constructor|split; [split; [exact AV|constructor]|reflexivity]]]|]. cbn [upd_step upd_t]. done.
  - go_part PQ "values" R. outer "values".
    + snd_of. snd_of. snd_of. fst_of. eapply set_acts; try exact R; eauto using kokr_app, kgin_app.
    + intros [ig tabs vals wh al] y (op' & S & AV & ->). destruct op'; try contradiction. destruct S as [S1 S2]. eexists. split; [deep; exists args, kwds; split; [exact S1|split; [exact S2|split; [apply kavoids_app; exact AV|reflexivity]]]|]. cbn [upd_step upd_t]. done.
  - go_part PQ "where" R. outer "where".
    + snd_of. snd_of. snd_of. snd_of. eapply where_acts; try exact R; eauto using kokr_app, kgin_app.
    + intros [ig tabs vals wh al] y (op' & S & AV & ->). destruct op'; try contradiction. destruct S as [S1 S2]. eexists. split; [deep; exists args, kwds; split; [exact S1|split; [exact S2|split; [apply kavoids_app; exact AV|reflexivity]]]|]. cbn [upd_step upd_t]. done.
  - go_part PQ "tables" R. outer "tables".
    + snd_of. snd_of. fst_of. inversion OR; subst. eapply h_join_any; try exact R; eauto.
    + intros [ig tabs vals wh al] y (op' & S & AV & ->). destruct op'; try contradiction. inversion AV as [|? ? AV1 AV2]; subst. destruct S as [-> S]. eexists. split; [deep; eexists; split; [exact S|split; [assumption|reflexivity]]|]. cbn [upd_step upd_t]. done.
  - go_part PQ "tables" R. outer "tables".
    + snd_of. snd_of. fst_of. eapply h_on_spec; try exact R; eauto using kokr_app, kgin_app. intros y z E Y. exact (usable_own _ _ _ _ _ U E Y).
    + intros [ig tabs vals wh al] y (op' & S & AV & ->). destruct op'; try contradiction. destruct S as [S1 S2]. eexists. split; [deep; exists args, kwds; split; [exact S1|split; [exact S2|split; [apply kavoids_app; exact AV|reflexivity]]]|]. cbn [upd_step upd_t]. done.
  - eapply acts_map; [apply acts_pack; eapply (acts_whole _ _ _ _ None); unfold updP; cbn [fst snd]|].
    + fst_of. eapply flag_spec with (K := fun v y => y = (true, Ok tt)); eauto.
    + intros [ig tabs vals wh al] y (op' & S & AV & ->). destruct op'; try contradiction. eexists. split; [deep; reflexivity|]. split; reflexivity.
  - eapply acts_map; [apply acts_pack; eapply (acts_whole _ _ _ _ None); unfold updP; cbn [fst snd]|].
    + fst_of. eapply flag_spec with (K := fun v y => y = (false, Ok tt)); eauto.
    + intros [ig tabs vals wh al] y (op' & S & AV & ->). destruct op'; try contradiction. eexists. split; [deep; reflexivity|]. split; reflexivity.
  - go_part PQ "update_options" R. outer "update_options".
    + snd_of. fst_of. eapply truth_spec with (f := fun b => h_ignore _ b) (K := fun b v y => y = (b, Ok tt)); [eassumption|eassumption|exact R|]. intros bb RR. eapply ignore_spec; eauto.
    + intros [ig tabs vals wh al] y (op' & S & AV & ->). destruct op'; try contradiction. eexists. split; [deep; eexists; split; [exact S|reflexivity]|]. cbn [upd_step upd_t]. done.
Qed.
Lemma del_call_acts : forall W (G : addr -> Prop) q own h x op h' o, inv own h -> usable own h G -> pd_at (deld q) own h x ->
  Forall (okr own h) (del_refs op) -> Forall (gin G h) (del_refs op) -> (forall ty a, op = HDJoin ty a -> eaten G h a) -> h_del_call W q op h = (h', o) ->
  acts (deld q) G (fun own => whole own q) q own h x h' o (fun v y => exists op', del_stands h op op' /\ Forall (avoids h q) (del_refs op) /\ y = del_step W v op').
Proof.
  intros W G q own h [[d a] (b & x1 & x2 & x3 & x4)] op h' o J U PA OR GR JN R.
  destruct PA as (PQ & P1 & P2 & P3 & P4). cbn [fst snd] in *. destruct (qobj_kind _ _ _ _ _ _ _ _ _ PQ) as [KQ NQ].
  assert (MI : forall k, In k del_keys -> exists s, own (a k) = Some (q, s))
    by (intros k IK; cbn in IK; destruct IK as [<-|[<-|[<-|[<-|[]]]]]; [destruct P1 as (? & ? & OW & ?)|destruct P3 as (? & ? & (? & OW & ?) & ?)|destruct P2 as (? & ? & (? & OW & ?) & ?)|destruct P4 as (? & (? & OW & ?) & ?)]; eexists; exact OW).
  destruct op as [ar|ar kw|t al|ar kw|ty ar|ar kw| | |ar]; cbn [h_del_call del_refs] in *.
  - go_part PQ "tables" R. outer "tables".
    + snd_of. snd_of. fst_of. eapply h_tables_spec; try exact R; eauto. split; [exact OR|constructor].
    + intros [ig tabs refs wh al] y (op' & S & AV & ->). destruct op'; try contradiction. eexists. split; [deep; exists args, []; split; [exact S|split; [constructor|split; [split; [exact AV|constructor]|reflexivity]]]|]. cbn [del_step del_t]. done.
  - go_part PQ "references" R. outer "references".
    + snd_of. snd_of. snd_of. fst_of. eapply h_tables_spec; try exact R; eauto using kokr_app.
    + intros [ig tabs refs wh al] y (op' & S & AV & ->). destruct op'; try contradiction. destruct S as [S1 S2]. eexists. split; [deep; exists args, kwds; split; [exact S1|split; [exact S2|split; [apply kavoids_app; exact AV|reflexivity]]]|]. cbn [del_step del_t]. done.
  - go_part PQ "references" R. outer "references".
    + snd_of. snd_of. snd_of. fst_of. inversion OR as [|? ? O1 OR1]; subst. inversion OR1; subst. eapply from_table_spec; try exact R; eauto.
    + intros [ig tabs refs wh alw] y (op' & S & AV & ->). destruct op'; try contradiction. inversion AV as [|? ? AV1 AV2]; subst. inversion AV2; subst. destruct S as [S1 S2]. eexists. split; [deep; eexists _, _; split; [exact S1|split; [exact S2|split; [assumption|split; [assumption|reflexivity]]]]|]. cbn [del_step del_t]. done.
  - go_part PQ "where" R. outer "where".
    + snd_of. snd_of. snd_of. snd_of. eapply where_acts; try exact R; eauto using kokr_app, kgin_app.
    + intros [ig tabs refs wh al] y (op' & S & AV & ->). destruct op'; try contradiction. destruct S as [S1 S2]. eexists. split; [deep; exists args, kwds; split; [exact S1|split; [exact S2|split; [apply kavoids_app; exact AV|reflexivity]]]|]. cbn [del_step del_t]. done.
  - go_part PQ "references" R. outer "references".
    + snd_of. snd_of. snd_of. fst_of. inversion OR; subst. eapply h_join_any; try exact R; eauto.
    + intros [ig tabs refs wh al] y (op' & S & AV & ->). destruct op'; try contradiction. inversion AV as [|? ? AV1 AV2]; subst. destruct S as [-> S]. eexists. split; [deep; eexists; split; [exact S|split; [assumption|reflexivity]]|]. cbn [del_step del_t]. done.
  - go_part PQ "references" R. outer "references".
    + snd_of. snd_of. snd_of. fst_of. eapply h_on_spec; try exact R; eauto using kokr_app, kgin_app. intros y z E Y. exact (usable_own _ _ _ _ _ U E Y).
    + intros [ig tabs refs wh al] y (op' & S & AV & ->). destruct op'; try contradiction. destruct S as [S1 S2]. eexists. split; [deep; exists args, kwds; split; [exact S1|split; [exact S2|split; [apply kavoids_app; exact AV|reflexivity]]]|]. cbn [del_step del_t]. done.
  - eapply acts_map; [apply acts_pack; eapply (acts_whole _ _ _ _ None); unfold delP; cbn [fst snd]|].
    + fst_of. eapply flag_spec with (K := fun v y => y = (true, Ok tt)); eauto.
    + intros [ig tabs refs wh al] y (op' & S & AV & ->). destruct op'; try contradiction. eexists. split; [deep; reflexivity|]. split; reflexivity.
  - eapply acts_map; [apply acts_pack; eapply (acts_whole _ _ _ _ None); unfold delP; cbn [fst snd]|].
    + fst_of. eapply flag_spec with (K := fun v y => y = (false, Ok tt)); eauto.
    + intros [ig tabs refs wh al] y (op' & S & AV & ->). destruct op'; try contradiction. eexists. split; [deep; reflexivity|]. split; reflexivity.
  - go_part PQ "delete_options" R. outer "delete_options".
    + snd_of. fst_of. eapply truth_spec with (f := fun b => h_ignore _ b) (K := fun b v y => y = (b, Ok tt)); [eassumption|eassumption|exact R|]. intros bb RR. eapply ignore_spec; eauto.
    + intros [ig tabs refs wh al] y (op' & S & AV & ->). destruct op'; try contradiction. eexists. split; [deep; eexists; split; [exact S|reflexivity]|]. cbn [del_step del_t]. done.
Qed.

(** ** Printing *)
Lemma sel_show_acts : forall W (G : addr -> Prop) q own h x n h' o, inv own h -> usable own h G -> pd_at (seld q) own h x -> at_part "_tables" q (h_show W n) h = (h', o) ->
  acts (seld q) G (fun own => whole own q) q own h x h' o (fun v y => y = lift1 (with_tabs v) (shown_tables W n (s_tabs v))).
Proof.
  intros W G q own h [[d a] (b & x1 & x2 & x3 & x4 & x5 & x6 & x7 & x8 & x9 & x10)] n h' o J U PA R.
  destruct PA as (PQ & P1 & P2 & P3 & P4 & P5 & P6 & P7 & P8 & P9 & P10). cbn [fst snd] in *. destruct (qobj_kind _ _ _ _ _ _ _ _ _ PQ) as [KQ NQ].
  go_part PQ "tables" R. outer "tables".
  - snd_of. snd_of. snd_of. fst_of. eapply h_show_spec; try exact R; eauto.
  - intros u y ->. eexists. split; [deep; reflexivity|]. done.
Qed.
Lemma ins_show_acts : forall W (G : addr -> Prop) q own h x n h' o, inv own h -> usable own h G -> pd_at (insd q) own h x -> at_part "_tables" q (h_show W n) h = (h', o) ->
  acts (insd q) G (fun own => whole own q) q own h x h' o
    (fun v y => y = let '(MkIns rp ig tabs rows dup cf up) := v in lift1 (fun x => MkIns rp ig x rows dup cf up) (shown_tables W n tabs)).
Proof.
  intros W G q own h [[d a] (b & x1 & x2 & x3 & x4 & x5 & x6)] n h' o J U PA R.
  destruct PA as (PQ & P1 & P2 & P3 & P4 & P5 & P6). cbn [fst snd] in *. destruct (qobj_kind _ _ _ _ _ _ _ _ _ PQ) as [KQ NQ].
  go_part PQ "tables" R. outer "tables".
  - snd_of. snd_of. snd_of. fst_of. eapply h_show_spec; try exact R; eauto.
  - intros [rp ig tabs rows dup cf up] y ->. eexists. split; [deep; reflexivity|]. cbn [ins_t]. done.
Qed.
Lemma upd_show_acts : forall W (G : addr -> Prop) q own h x n h' o, inv own h -> usable own h G -> pd_at (updd q) own h x -> at_part "_tables" q (h_show W n) h = (h', o) ->
  acts (updd q) G (fun own => whole own q) q own h x h' o
    (fun v y => y = let '(MkUpd ig tabs vals wh al) := v in lift1 (fun x => MkUpd ig x vals wh al) (shown_tables W n tabs)).
Proof.
  intros W G q own h [[d a] (b & x1 & x2 & x3 & x4)] n h' o J U PA R.
  destruct PA as (PQ & P1 & P2 & P3 & P4). cbn [fst snd] in *. destruct (qobj_kind _ _ _ _ _ _ _ _ _ PQ) as [KQ NQ].
  go_part PQ "tables" R. outer "tables".
  - snd_of. snd_of. fst_of. eapply h_show_spec; try exact R; eauto.
  - intros [ig tabs vals wh al] y ->. eexists. split; [deep; reflexivity|]. cbn [upd_t]. done.
Qed.
Lemma del_show_acts : forall W (G : addr -> Prop) q own h x (f : bool) n h' o, inv own h -> usable own h G -> pd_at (deld q) own h x -> at_part (if f then "_references" else "_tables") q (h_show W n) h = (h', o) ->
  acts (deld q) G (fun own => whole own q) q own h x h' o
    (fun v y => y = let '(MkDel ig tabs rf wh al) := v in
       if f then lift1 (fun x => MkDel ig tabs x wh al) (shown_tables W n rf) else lift1 (fun x => MkDel ig x rf wh al) (shown_tables W n tabs)).
Proof.
  intros W G q own h [[d a] (b & x1 & x2 & x3 & x4)] f n h' o J U PA R.
  destruct PA as (PQ & P1 & P2 & P3 & P4). cbn [fst snd] in *. destruct (qobj_kind _ _ _ _ _ _ _ _ _ PQ) as [KQ NQ]. destruct f.
  - go_part PQ "references" R. outer "references".
    + snd_of. snd_of. snd_of. fst_of. eapply h_show_spec; try exact R; eauto.
    + intros [ig tabs rf wh al] y ->. eexists. split; [deep; reflexivity|]. cbn [del_t]. done.
  - go_part PQ "tables" R. outer "tables".
    + snd_of. snd_of. fst_of. eapply h_show_spec; try exact R; eauto.
    + intros [ig tabs rf wh al] y ->. eexists. split; [deep; reflexivity|]. cbn [del_t]. done.
Qed.
