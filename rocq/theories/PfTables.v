(** Lemmas: columns, conditions and values of a query; its tables. *)
From Coq Require Import Lia.
From Verif Require Import Base NumFmt Value Backend Eq Render ParseArgs Build Heap SpecHeap PfHeap PfHeapAlike PfHeapFrame PfHeapView HeapBuild SpecShare PfShare PfOwn PfParts PfNewItems PfMethods PfLayout PfOrders.
Open Scope nat_scope.
Local Arguments view : simpl never.

Definition condsd {A} (see : heap -> ref -> res A) (q : addr) (k : string) (c : cls) (sep : string) (more : list (label * ref)) (p : addr) : partd (list ref) (list A) :=
  MkPartd (fun own h items => conds_part own q h k c sep more p items) (fun h items xs => Forall2 (fun r x => see h r = Ok x) items xs) (fun l => l).
Lemma oks_calm : forall own h q rs, inv own h -> Forall (okr own h) rs -> Forall (avoids h q) rs -> Forall (calm nothing (whole own q) h) rs.
Proof. intros own h q rs J O A. induction O; inversion A; subst; constructor; auto. eapply avoids_calm; eauto. Qed.
Lemma calms_avoid : forall G own h q rs, Forall (calm G (whole own q) h) rs -> Forall (avoids h q) rs.
Proof. intros G own h q rs C. eapply Forall_impl; [|exact C]. intros. eapply calm_avoids; eauto. Qed.
Lemma kcalm_avoids : forall own h q args kwds, inv own h -> kokr own h args kwds -> kavoids h q args kwds -> kcalm (whole own q) h args kwds.
Proof.
  intros own h q args kwds J [OA OK] [AA AK]. split; [apply oks_calm; auto|]. clear - J OK AK. induction OK; inversion AK; subst; constructor; auto.
  eapply avoids_calm; eauto.
Qed.
Lemma added_acts : forall A (see : heap -> ref -> res A) G own q k cq h c sep more p l items h' o (K : (addr -> Prop) -> list A -> list A * outcome -> Prop),
  inv own h -> kind_of h q = Some (OInst cq) -> qparts own q h k c sep more p l items -> Forall (okr own h) items ->
  added see G own h c sep more p l items h' o K ->
  acts (condsd see q k c sep more p) G (fun own => cell own q k) q own h items h' o (K (whole own q)).
Proof.
  intros A see G own q k cq h c sep more p l items h' o K J KQ (P & OP & OL) OI (add & AF & P' & O' & V).
  exists own, (items ++ add). split; [eapply after_more; [| |exact AF]; [auto|intros y <-; exists PList; exact OL]|]. split.
  - exists l. split; [split; [exact P'|auto]|exact O'].
  - intros NG v y KK PV AX. cbn [condsd pd_val pd_refs] in *.
    destruct (V NG (whole own q) v y) as (R1 & R2 & R3); auto.
    + right. eauto.
    + eapply whole_fresh; eauto.
    + apply oks_calm; auto.
    + split; [exact R1|]. split; [exact R2|]. eapply calms_avoid; eauto.
Qed.

(** ** Tables *)
Definition tabsd (q : addr) (k : string) (c : cls) (p : addr) : partd (list (table ref)) (list (table val)) :=
  MkPartd (fun own h ts => tabs_part own q h k c p ts) (fun h ts vs => Forall2 (tab_val h) ts vs) (flat_map tab_refs).
Lemma kept_refs : forall own q k h own' h' rs, inv own h -> after nothing (cell own q k) own h own' h' -> Forall (okr own h) rs -> Forall (avoids h q) rs ->
  (forall r v, In r rs -> stands h r v -> stands h' r v) /\ Forall (avoids h' q) rs.
Proof.
  intros own q k h own' h' rs J A O AV. rewrite Forall_forall in O, AV. split.
  - intros r v I. apply (kept_stands own q k h own' h'); auto.
  - apply Forall_forall. intros r I. apply (kept_avoids own q k h own' h' r q); auto.
Qed.
Lemma tabs_okr : forall own q h k items i ts, ats (tab_at own q h k) i items ts -> Forall (okr own h) (flat_map tab_refs ts).
Proof.
  intros own q h k items. induction items as [|r items IH]; intros i [|x ts] A; cbn in A; try contradiction; [constructor|].
  destruct A as [A B]. cbn [flat_map]. apply Forall_app. split; [eapply tab_okr; eauto|eauto].
Qed.
Lemma tabs_keep : forall h h' ts vts, (forall r v, In r (flat_map tab_refs ts) -> stands h r v -> stands h' r v) -> Forall2 (tab_val h) ts vts -> Forall2 (tab_val h') ts vts.
Proof.
  intros h h' ts vts H F. induction F as [|x y ts vts T F IH]; constructor.
  - eapply tab_val_keep; [|exact T]. intros; apply H; [apply in_or_app; left; assumption|assumption].
  - apply IH. intros; apply H; [apply in_or_app; right; assumption|assumption].
Qed.
Lemma kept_tabs : forall own q k h own' h' ts vts, inv own h -> after nothing (cell own q k) own h own' h' -> Forall (okr own h) (flat_map tab_refs ts) ->
  Forall (avoids h q) (flat_map tab_refs ts) -> Forall2 (tab_val h) ts vts -> Forall2 (tab_val h') ts vts /\ Forall (avoids h' q) (flat_map tab_refs ts).
Proof.
  intros own q k h own' h' ts vts J A O AV F. destruct (kept_refs _ _ _ _ _ _ _ J A O AV) as [H1 H2]. split; [eapply tabs_keep; eauto|exact H2].
Qed.
Lemma tabs_see : forall own q h k items i ts vts, ats (tab_at own q h k) i items ts -> Forall2 (tab_val h) ts vts ->
  Forall2 (fun r x => see_table h r = Ok x) items vts.
Proof.
  intros own q h k items. induction items as [|r items IH]; intros i [|x ts] vts A F; cbn in A; try contradiction; inversion F; subst; constructor; destruct A as [A B]; eauto.
  unfold see_table. rewrite (table_read _ _ _ _ _ _ _ _ A). apply tab_val_read. assumption.
Qed.
Lemma tab_mine : forall own q h k j r x, tab_at own q h k j r x -> mine own h q r.
Proof. intros own q h k j r x (a & b & js & g & _ & -> & O & _ & G & _). cbn. split; [eapply get_lt; eauto|]. rewrite O. reflexivity. Qed.
Lemma get_ext : forall h o p, p < List.length h -> get (h ++ [o]) p = get h p.
Proof. intros. apply get_old. assumption. Qed.
Lemma owned_lt : forall own h p x, inv own h -> own p = Some x -> p < List.length h.
Proof. intros own h p [q s] J O. destruct (in_own _ _ J _ _ _ O) as (L & _). exact L. Qed.
Lemma q_lt : forall h q k, kind_of h q = Some k -> q < List.length h.
Proof. intros h q k K. unfold kind_of in K. destruct (get h q) eqn:G; [|discriminate]. eapply get_lt; eauto. Qed.
Lemma avoids_none : forall h q, avoids h q r_none.
Proof. intros h q R. apply reach_atom in R. discriminate. Qed.
(** new_table *)
Lemma new_table_cases : forall n a h h1 r, new_table n a h = (h1, r) ->
  (exists e, h1 = h /\ r = Err e /\ forall vn va, stands h n vn -> stands h a va -> mk_table vn va = Err e) \/
  (h1 = (h ++ [MkObj OList []]) ++ [tab_obj n a (List.length h)] /\ r = Ok (S (List.length h)) /\
    exists vn va, stands h n vn /\ stands h a va /\ mk_table vn va = Ok (vn, va)).
Proof.
  intros n a h h1 r R. unfold new_table in R. unfold mk_table.
  unfold hbind at 1, look at 1 in R. destruct (view h n) as [vn|e] eqn:VN.
  2: { injection R as <- <-. left. exists e. split; [reflexivity|]. split; [reflexivity|]. intros vn va S _. apply view_cases in S. congruence. }
  unfold hbind at 1, check at 1 in R. destruct (check_type [TStr] vn) eqn:CN.
  2: { injection R as <- <-. left. eexists. split; [reflexivity|]. split; [reflexivity|]. intros vn' va S _. apply view_cases in S. replace vn' with vn by congruence. rewrite CN. reflexivity. }
  unfold hbind at 1, look at 1 in R. destruct (view h a) as [va|e] eqn:VA.
  2: { injection R as <- <-. left. exists e. split; [reflexivity|]. split; [reflexivity|]. intros vn' va _ S. apply view_cases in S. congruence. }
  unfold hbind at 1, check at 1 in R. destruct (check_type [TNone; TStr] va) eqn:CA.
  2: { injection R as <- <-. left. eexists. split; [reflexivity|]. split; [reflexivity|]. intros vn' va' S S'. apply view_cases in S, S'. replace vn' with vn by congruence. replace va' with va by congruence. rewrite CN, CA. reflexivity. }
  unfold hbind at 1, alloc in R. rewrite app_len in R. injection R as <- <-. right. split; [reflexivity|]. split; [reflexivity|].
  exists vn, va. apply stands_view in VN, VA. rewrite CN, CA. auto.
Qed.
Definition table_item (W : world) (s : list (table val)) (it : list val) : list (table val) * outcome :=
  let (n, a) := nth2 it in commit s (do x <- mk_table n a; append_unique (table_eq (w_eq W)) s (MkTable (fst x) (snd x) [])).
Lemma fix_all : forall own q k h h1, (forall b, b < List.length h -> get h1 b = get h b) -> inv own h -> forall X, fixed own q k X h h1.
Proof. intros own q k h h1 H J X b s _ OB. apply H. eapply owned_lt; eauto. Qed.
Lemma h_table1_spec : forall W G q k cq c p own h ts it h' o, inv own h -> own q = None -> kind_of h q = Some (OInst cq) ->
  pd_at (tabsd q k c p) own h ts -> Forall (okr own h) it ->
  (let (n, a) := r_nth2 it in doh x <- new_table n a; append_unique_part see_table (table_eq (w_eq W)) (RPtr p) (RPtr x)) h = (h', o) ->
  acts (tabsd q k c p) G (fun own => cell own q k) q own h ts h' o
    (fun v y => exists vit, Forall2 (stands h) it vit /\ Forall (avoids h q) it /\ y = table_item W v vit).
Proof.
  intros W G q k cq c p own h ts it h' o J NQ KQ (l & items & Q & A) OT R.
  assert (PT : pd_at (tabsd q k c p) own h ts) by (exists l, items; auto).
  pose proof (nth2_all (okr own h) it Logic.I OT) as [ON OA]. pose proof (nth2_stands h it) as NS. pose proof (nth2_all (avoids h q) it (avoids_none h q)) as NA.
  unfold table_item. destruct (r_nth2 it) as [n a]. cbn [fst snd] in *.
  unfold hbind at 1 in R. destruct (new_table n a h) as [h2 r] eqn:NT.
  destruct (new_table_cases _ _ _ _ _ NT) as [(e & -> & -> & HE)|(-> & -> & vn & va & SN & SA & MT)]; clear NT.
  { injection R as <- <-. apply acts_same; auto. intros _ v y (vit & S & _ & ->) _. destruct (NS _ S) as [S1 S2]. destruct (nth2 vit) as [vn va]. cbn [fst snd] in S1, S2.
    rewrite (HE _ _ S1 S2). reflexivity. }
  assert (EV : forall vit, Forall2 (stands h) it vit -> nth2 vit = (vn, va)).
  { intros vit S. destruct (NS _ S) as [S1 S2]. destruct (nth2 vit). cbn [fst snd] in *. rewrite (stands_fun _ _ _ _ SN S1), (stands_fun _ _ _ _ SA S2). reflexivity. }
  set (j := List.length h) in *. set (h1 := h ++ [MkObj OList []]) in *. set (h2 := h1 ++ [tab_obj n a j]) in *.
  assert (L1 : List.length h1 = S j) by (unfold h1; rewrite app_len; reflexivity).
  assert (L2 : List.length h2 = S (S j)) by (unfold h2; rewrite app_len; congruence).
  assert (GJ : get h2 j = Some (MkObj OList [])). { unfold h2. rewrite get_ext by lia. apply get_new. }
  assert (GX : get h2 (S j) = Some (tab_obj n a j)). { unfold h2. rewrite <- L1. apply get_new. }
  assert (OLD : forall b, b < List.length h -> get h2 b = get h b). { intros b LB. unfold h2, h1. rewrite !get_ext; [reflexivity|exact LB|rewrite app_len; lia]. }
  (* the public reading *)
  assert (AF0 : after G (cell own q k) own h own h2 /\ after nothing (cell own q k) own h own h2).
  { assert (X : forall G0, after G0 (cell own q k) own h own h2).
    { intros G0. destruct (after_alloc G0 (cell own q k) own h OList [] J ltac:(intros ? ? [])) as [X1 OJ].
      destruct (after_alloc G0 (cell own q k) own h1 (OInst CTable) [(LAttr "_table_name", n); (LAttr "_alias", a); (LAttr "_joins", RPtr j)]) as [X2 _].
      - eapply inv_after; eauto.
      - intros a0 r0 [E|[E|[E|[]]]]; injection E as <- <-; [eapply okr_keeps; [apply X1|exact ON]|eapply okr_keeps; [apply X1|exact OA]|exact OJ].
      - eapply after_trans; eauto. }
    split; apply X. }
  destruct AF0 as [AF0 AF0']. pose proof (keeps_after _ _ _ _ _ _ AF0) as KP0.
  pose proof (fix_all own q k h h2 OLD J) as FX0.
  assert (Q0 : qparts own q h2 k c ", " [] p l items) by (eapply qparts_frame; eauto).
  assert (A0 : ats (tab_at own q h2 k) 0 items ts). { eapply ats_impl; [|exact A]. intros i r x _ _. apply tab_frame; auto. }
  assert (OKS := tabs_okr _ _ _ _ _ _ _ A).
  assert (SX : see_table h2 (RPtr (S j)) = Ok (MkTable vn va [])).
  { unfold see_table, d_table. rewrite (named_read _ _ _ _ _ _ GX).
    assert (S1 : stands h2 n vn). { eapply stands_frame; [apply J|eapply okr_valid; eauto| |exact SN]. intros b RB. apply OLD. eapply reach_valid in RB; [exact RB|apply J|eapply okr_valid; eauto]. }
    assert (S2 : stands h2 a va). { eapply stands_frame; [apply J|eapply okr_valid; eauto| |exact SA]. intros b RB. apply OLD. eapply reach_valid in RB; [exact RB|apply J|eapply okr_valid; eauto]. }
    rewrite (view_cases _ _ _ S1). cbn [bind]. rewrite (view_cases _ _ _ S2). cbn [bind]. rewrite (joins_attr _ _ _ _ _ GX). cbn [bind]. rewrite (refs_list _ _ _ GJ). reflexivity. }
  unfold append_unique_part in R. unfold hbind at 1 in R. unfold look at 1 in R.
  rewrite (parts_at_of _ _ _ _ _ _ _ (proj1 Q0)) in R. cbn [bind] in R. rewrite SX in R. cbn [bind] in R.
  assert (FD : forall v, Forall2 (tab_val h) ts v -> Forall (avoids h q) (flat_map tab_refs ts) ->
    anyM (fun r => do w <- see_table h2 r; table_eq (w_eq W) w (MkTable vn va [])) items = anyM (fun w => table_eq (w_eq W) w (MkTable vn va [])) v).
  { intros v PV AX. apply anyM_see. destruct (kept_tabs own q k h own h2 ts v J AF0' OKS AX PV) as [T _]. eapply tabs_see; eauto. }
  destruct (anyM _ items) as [[|]|e] eqn:AM.
  - injection R as <- <-. exists own, ts. split; [exact AF0|]. split; [exists l, items; auto|].
    intros NG v y (vit & S & AT & ->) PV AX. rewrite (EV _ S), MT. cbn [bind fst snd]. cbn [tabsd pd_val pd_refs] in *. unfold append_unique. rewrite <- (FD v PV AX). cbn [bind commit fst snd].
    destruct (kept_tabs own q k h own h2 ts v J AF0' OKS AX PV) as [T T']. auto.
  - (* tagged *)
    set (i := List.length items) in *. set (own1 := upd own j (q, (k, PJoins i))). set (own2 := upd own1 (S j) (q, (k, PItem i))).
    assert (AF1 : after G (cell own q k) own h own1 h1). { eapply after_alloc_in; eauto; [discriminate|intros ? ? []]. }
    pose proof (inv_after _ _ _ _ _ _ AF1) as J1. pose proof (keeps_after _ _ _ _ _ _ AF1) as K1.
    assert (AF2 : after G (cell own1 q k) own1 h1 own2 h2).
    { unfold own2. rewrite <- L1. eapply after_alloc_in; [exact J1| |apply K1; exact KQ|discriminate|].
      - destruct K1 as (_ & OO & _). rewrite OO; [exact NQ|eapply q_lt; eauto].
      - intros a0 r0 [E|[E|[E|[]]]]; injection E as <- <-; try (apply okr_mine; eapply okr_keeps; eauto; fail).
        cbn. split; [lia|]. unfold own1. rewrite upd_same. reflexivity. }
    pose proof (after_cells _ _ _ _ _ _ _ _ _ AF1 AF2) as AF. pose proof (keeps_after _ _ _ _ _ _ AF) as KP. pose proof (inv_after _ _ _ _ _ _ AF) as J2.
    assert (Q2 : qparts own2 q h2 k c ", " [] p l items) by (eapply qparts_frame; eauto).
    assert (A2 : ats (tab_at own2 q h2 k) 0 items ts). { eapply ats_impl; [|exact A]. intros i0 r x _ _. apply tab_frame; auto. }
    assert (NEW : tab_at own2 q h2 k i (RPtr (S j)) (MkTable n a [])).
    { exists (S j), j, [], (fun n => n). split; [intros i1 i2 _ _ E1; exact E1|]. split; [reflexivity|]. split; [apply upd_same|]. split; [unfold own2, own1; rewrite upd_other by lia; apply upd_same|].
      split; [exact GX|]. split; [exact GJ|]. cbn [tb_name tb_alias tb_joins]. split; [eapply okr_keeps; eauto|]. split; [eapply okr_keeps; eauto|exact Logic.I]. }
    destruct (append_mine G own2 h2 q k c ", " [] p l items (RPtr (S j)) J2 Q2 (ats_mine _ _ _ _ _ _ _ _ (tab_mine own2 q h2 k) A2) (tab_mine _ _ _ _ _ _ _ NEW)) as (h3 & E3 & AF3 & Q3 & GO3).
    rewrite E3 in R. injection R as <- <-.
    pose proof (keeps_after _ _ _ _ _ _ AF3) as KP3.
    assert (FX : forall i0, fixed own2 q k (fun s => idx s = Some i0) h2 h3).
    { intros i0 b s HS OB. apply GO3. intros ->. destruct Q2 as (_ & _ & OL). rewrite OL in OB. injection OB as <-. discriminate. }
    pose proof (after_cells _ _ _ _ _ _ _ _ _ AF AF3) as AFF.
    exists own2, (ts ++ [MkTable n a []]). split; [exact AFF|]. split.
    + exists l, (items ++ [RPtr (S j)]). split; [exact Q3|]. apply ats_app; [eapply ats_len; eauto|]. split.
      * eapply ats_impl; [|exact A2]. intros i0 r x _ _. apply tab_frame; [exact KP3|apply FX].
      * split; [|exact Logic.I]. cbn [Nat.add]. eapply tab_frame; [exact KP3|apply FX|exact NEW].
    + intros NG v y (vit & S & AT & ->) PV AX. rewrite (EV _ S), MT. cbn [bind fst snd]. cbn [tabsd pd_val pd_refs] in *. unfold append_unique. rewrite <- (FD v PV AX). cbn [bind commit fst snd].
      pose proof (quiet _ _ _ _ _ _ _ NG AFF) as AF'. destruct (NA AT) as [NA1 NA2].
      destruct (kept_tabs own q k h own2 h3 ts v J AF' OKS AX PV) as [T T'].
      split; [|split; [reflexivity|]].
      * apply Forall2_app; [exact T|]. constructor; [|constructor]. split; [exact (kept_stands _ _ _ _ _ _ _ _ J AF' ON NA1 SN)|].
        split; [exact (kept_stands _ _ _ _ _ _ _ _ J AF' OA NA2 SA)|constructor].
      * rewrite flat_map_app. apply Forall_app. split; [exact T'|]. cbn [flat_map tab_refs tb_name tb_alias tb_joins app].
        constructor; [exact (kept_avoids _ _ _ _ _ _ _ _ J AF' ON NA1 NA1)|]. constructor; [exact (kept_avoids _ _ _ _ _ _ _ _ J AF' OA NA2 NA2)|constructor].
  - injection R as <- <-. exists own, ts. split; [exact AF0|]. split; [exists l, items; auto|].
    intros NG v y (vit & S & AT & ->) PV AX. rewrite (EV _ S), MT. cbn [bind fst snd]. cbn [tabsd pd_val pd_refs] in *. unfold append_unique. rewrite <- (FD v PV AX). cbn [bind commit fst snd].
    destruct (kept_tabs own q k h own h2 ts v J AF0' OKS AX PV) as [T T']. auto.
Qed.
Lemma filter_refs : forall h args vs, Forall2 (stands h) args vs ->
  Forall2 (stands h) (map fst (filter (fun x => truthy (snd x)) (combine args vs))) (filter truthy vs).
Proof.
  intros h args vs F. induction F as [|a v args vs S F IH]; [constructor|]. cbn [combine filter snd]. destruct (truthy v); cbn [map fst]; auto.
Qed.
Lemma filter_all : forall (P : ref -> Prop) args (vs : list val), Forall P args -> Forall P (map fst (filter (fun x => truthy (snd x)) (combine args vs))).
Proof.
  intros P args vs F. revert vs. induction F as [|a args PA F IH]; intros [|v vs]; cbn [combine filter snd map]; try constructor. destruct (truthy v); cbn [map fst]; auto.
Qed.
Lemma h_tables_spec : forall W G q k cq c p own h ts args kwds h' o, inv own h -> own q = None -> kind_of h q = Some (OInst cq) ->
  pd_at (tabsd q k c p) own h ts -> kokr own h args kwds -> h_tables W (RPtr p) args kwds h = (h', o) ->
  acts (tabsd q k c p) G (fun own => cell own q k) q own h ts h' o (fun v y => exists vs vk, Forall2 (stands h) args vs /\ Forall2 (kw_stands h) kwds vk /\
    kavoids h q args kwds /\ y = tables_set W v vs vk).
Proof.
  intros W G q k cq c p own h ts args kwds h' o J NQ KQ PT [OA OK] R. unfold h_tables in R.
  unfold hbind at 1, look at 1 in R. destruct (mapM (view h) args) as [vs0|e] eqn:MV.
  2: { injection R as <- <-. apply acts_same; auto. intros NG v y (vs & vk & SV & _) _. rewrite (views_all _ _ _ SV) in MV. discriminate. }
  set (args' := map fst (filter (fun x => truthy (snd x)) (combine args vs0))) in *.
  pose proof (filter_all (okr own h) args vs0 OA) as OA'. fold args' in OA'.
  unfold hbind at 1, look at 1 in R. destruct (r_parse_args W h alias_opts args' kwds) as [its|e] eqn:PA.
  - pose proof (el_parse _ _ (okr_elements _ _ J) _ _ _ _ _ OA' OK PA) as OT.
    eapply acts_more.
    + eapply acts_loop with (f := table_item W); [|exact J|exact NQ|exact KQ|exact PT|exact OT|exact R].
      intros own0 h0 x it h1 o1 J0 NQ0 KQ0 PT0 OT0 R0. eapply h_table1_spec; eauto.
    + intros NG v y (vs & vk & SV & SK & [CA CK] & ->) _.
      assert (vs = vs0) by (pose proof (views_all _ _ _ SV); congruence). subst vs.
      pose proof (parse_stands W h alias_opts args' (filter truthy vs0) kwds vk (filter_refs _ _ _ SV) SK) as PS. rewrite PA in PS. unfold tables_set.
      destruct (parse_args W alias_opts (filter truthy vs0) vk) as [vits|]; cbn in PS; [|contradiction].
      exists vits. split; [exact PS|]. split; [eapply el_parse; [apply avoids_elements|apply filter_all; exact CA|exact CK|exact PA]|reflexivity].
  - injection R as <- <-. apply acts_same; auto. intros NG v y (vs & vk & SV & SK & _ & ->) _.
    assert (vs = vs0) by (pose proof (views_all _ _ _ SV); congruence). subst vs.
    pose proof (parse_stands W h alias_opts args' (filter truthy vs0) kwds vk (filter_refs _ _ _ SV) SK) as PS. rewrite PA in PS. unfold tables_set.
    destruct (parse_args W alias_opts (filter truthy vs0) vk) as [vits|]; cbn in PS; [contradiction|]. subst. reflexivity.
Qed.
