(** Lemmas: what a query has inside it. *)
From Coq Require Import Lia.
From Verif Require Import Base NumFmt Value Backend Eq Render ParseArgs Build Queries Heap SpecHeap PfHeap PfHeapAlike PfHeapFrame PfHeapView HeapBuild SpecShare PfShare PfOwn PfParts PfNewItems PfMethods PfLayout PfOrders PfTables PfJoins PfCells PfConflict PfQueries PfCalls PfReading.
Open Scope nat_scope.
Local Arguments view : simpl never.

(** Something in one of the query's own objects, below [p]. *)
Definition under (own : owner) (q : addr) (h : heap) (p : addr) (r : ref) : Prop :=
  exists l s, own l = Some (q, s) /\ reach h (RPtr p) (RPtr l) /\ refers h l r.
Definition inner {L V} (P : partd L V) (q p : addr) : Prop := forall own h x r, pd_at P own h x -> In r (pd_refs P x) -> under own q h p r.
Lemma refers_get : forall h p k l a r, get h p = Some (MkObj k l) -> In (a, r) l -> refers h p r.
Proof. intros. exists k, l, a. auto. Qed.
Lemma reach_one : forall h p r, refers h p r -> reach h (RPtr p) r.
Proof. intros. eapply reach_step; [eassumption|apply reach_refl]. Qed.
Lemma ats_in : forall X (P : nat -> ref -> X -> Prop) items i xs x, ats P i items xs -> In x xs -> exists j r, In r items /\ P j r x.
Proof.
  intros X P items. induction items as [|r items IH]; intros i [|y xs] x A I; cbn in A; try contradiction. destruct A as [A B]. destruct I as [->|I].
  - exists i, r. split; [left; reflexivity|exact A].
  - destruct (IH _ _ _ B I) as (j & r' & I' & P'). exists j, r'. split; [right; exact I'|exact P'].
Qed.
Lemma parts_item : forall h c sep more p l items r, parts_at h c sep more p l items -> In r items -> refers h l r.
Proof. intros h c sep more p l items r [_ G] I. eapply refers_get; [exact G|]. right. apply (in_map item) in I. exact I. Qed.
Lemma parts_list : forall h c sep more p l items, parts_at h c sep more p l items -> refers h p (RPtr l).
Proof. intros h c sep more p l items [G _]. eapply refers_get; [exact G|left; reflexivity]. Qed.
Lemma inner_conds : forall A (see : heap -> ref -> res A) q k c sep more p, inner (condsd see q k c sep more p) q p.
Proof. intros A see q k c sep more p own h x r (l & (P & _ & O) & _) I. exists l, (k, PList). split; [exact O|]. split; [apply reach_one; eapply parts_list; eauto|eapply parts_item; eauto]. Qed.
Lemma inner_orders : forall q k c p, inner (ordersd q k c p) q p.
Proof.
  intros q k c p own h x r (l & items & (P & _ & O) & A) I. cbn in I. apply in_map_iff in I. destruct I as (y & <- & I). destruct (ats_in _ _ _ _ _ _ A I) as (j & r & I' & (a & -> & OA & G & _)).
  exists a, (k, PItem j). split; [exact OA|]. split; [|eapply refers_get; [exact G|left; reflexivity]]. eapply reach_step; [eapply parts_list; eauto|]. apply reach_one. eapply parts_item; eauto.
Qed.
Lemma inner_tabs : forall q k c p, inner (tabsd q k c p) q p.
Proof.
  intros q k c p own h x r (l & items & (P & _ & O) & A) I. cbn in I. apply in_flat_map in I. destruct I as (y & I & IR).
  destruct (ats_in _ _ _ _ _ _ A I) as (i & r1 & I' & (a & j & js & g & _ & -> & OA & OJ & GA & GJ & _ & _ & AJ)).
  assert (RA : reach h (RPtr p) (RPtr a)) by (eapply reach_step; [eapply parts_list; eauto|]; apply reach_one; eapply parts_item; eauto).
  destruct IR as [<-|[<-|IR]].
  - exists a, (k, PItem i). split; [exact OA|]. split; [exact RA|eapply refers_get; [exact GA|left; reflexivity]].
  - exists a, (k, PItem i). split; [exact OA|]. split; [exact RA|eapply refers_get; [exact GA|right; left; reflexivity]].
  - apply in_flat_map in IR. destruct IR as (z & IZ & IR). destruct (ats_in _ _ _ _ _ _ AJ IZ) as (m & r2 & I2 & (d & t & tj & o & ol & -> & O1 & O2 & O3 & O4 & O5 & G1 & G2 & G3 & PO & _)).
    assert (RJ : reach h (RPtr p) (RPtr j)) by (eapply reach_trans; [exact RA|]; apply reach_one; eapply refers_get; [exact GA|right; right; left; reflexivity]).
    assert (RD : reach h (RPtr p) (RPtr d)) by (eapply reach_trans; [exact RJ|]; apply reach_one; eapply refers_get; [exact GJ|apply (in_map item) in I2; exact I2]).
    assert (RT : reach h (RPtr p) (RPtr t)) by (eapply reach_trans; [exact RD|]; apply reach_one; eapply refers_get; [exact G1|cbn; auto 10]).
    assert (RO : reach h (RPtr p) (RPtr ol)).
    { eapply reach_trans; [exact RD|]. eapply reach_step; [eapply refers_get; [exact G1|cbn; auto 10]|]. apply reach_one. eapply parts_list; eauto. }
    destruct IR as [<-|[<-|IR]].
    + eexists t, _. split; [exact O2|]. split; [exact RT|eapply refers_get; [exact G2|left; reflexivity]].
    + eexists t, _. split; [exact O2|]. split; [exact RT|eapply refers_get; [exact G2|right; left; reflexivity]].
    + eexists ol, _. split; [exact O5|]. split; [exact RO|eapply parts_item; eauto].
Qed.
Lemma inner_out : forall q k p, inner (outd q k p) q p.
Proof.
  intros q k p own h x r (G & O & _) I. exists p, (k, PPart). split; [exact O|]. split; [apply reach_refl|]. destruct I as [<-|[<-|[<-|[<-|[]]]]]; (eapply refers_get; [exact G|]); cbn; auto 10.
Qed.
Lemma inner_conflict : forall q k p, inner (conflictd q k p) q p.
Proof.
  intros q k p own h x r [OK PA] I. destruct I as [<-|I]; [|exact (inner_conds _ _ _ _ _ _ _ _ _ _ _ _ PA I)].
  destruct PA as (l & ([G _] & OP & _) & _). exists p, (k, PPart). split; [exact OP|]. split; [apply reach_refl|]. eapply refers_get; [exact G|right; left; reflexivity].
Qed.
Lemma qobj_part : forall q c ks more d a own h b k, pd_at (qobjd q c ks more d a) own h b -> In k ks -> refers h q (RPtr (a k)).
Proof.
  intros q c ks more d a own h b k (G & _) I. eapply refers_get; [exact G|]. right. apply in_or_app. left. unfold entries.
  apply (in_map (fun k => (LAttr (String.append "_" k), RPtr (a k)))) in I. exact I.
Qed.
Lemma under_q : forall q c ks more d a own h b k r, pd_at (qobjd q c ks more d a) own h b -> In k ks -> under own q h (a k) r -> under own q h q r.
Proof. intros q c ks more d a own h b k r PQ I (l & s & O & R & F). exists l, s. split; [exact O|]. split; [|exact F]. eapply reach_step; [eapply qobj_part; eauto|exact R]. Qed.
Ltac by_part PQ k L := eapply (under_q _ _ _ _ _ _ _ _ _ k _ PQ); [cbn; tauto|eapply L; eauto].
Lemma insides_under : forall k q own h rs r, insides k q own h rs -> In r rs -> under own q h q r.
Proof.
  intros [] q own h rs r (x & PA & ->) I.
  - destruct x as [[d a] (b & x1 & x2 & x3 & x4 & x5 & x6 & x7 & x8 & x9 & x10)]. destruct PA as (PQ & P1 & P2 & P3 & P4 & P5 & P6 & P7 & P8 & P9 & P10). cbn [fst snd] in *.
    cbn -[condsd tabsd ordersd outd] in I. repeat (apply in_app_or in I; destruct I as [I|I]).
    + by_part PQ "columns" @inner_conds. + by_part PQ "tables" @inner_tabs. + by_part PQ "where" @inner_conds. + by_part PQ "group_by" @inner_orders. + by_part PQ "having" @inner_conds.
    + by_part PQ "order_by" @inner_orders. + by_part PQ "into_outfile" @inner_out. + contradiction.
  - destruct x as [[d a] (b & x1 & x2 & x3 & x4 & x5 & x6)]. destruct PA as (PQ & P1 & P2 & P3 & P4 & P5 & P6). cbn [fst snd] in *.
    cbn -[condsd tabsd ordersd outd conflictd rowsd] in I. repeat (apply in_app_or in I; destruct I as [I|I]).
    + by_part PQ "tables" @inner_tabs. + by_part PQ "values" @inner_conds. + by_part PQ "on_duplicate_key_update" @inner_conds. + by_part PQ "on_conflict_do_update" @inner_conflict.
  - destruct x as [[d a] (b & x1 & x2 & x3 & x4)]. destruct PA as (PQ & P1 & P2 & P3 & P4). cbn [fst snd] in *.
    cbn -[condsd tabsd ordersd outd] in I. repeat (apply in_app_or in I; destruct I as [I|I]).
    + by_part PQ "tables" @inner_tabs. + by_part PQ "values" @inner_conds. + by_part PQ "where" @inner_conds.
  - destruct x as [[d a] (b & x1 & x2 & x3 & x4)]. destruct PA as (PQ & P1 & P2 & P3 & P4). cbn [fst snd] in *.
    cbn -[condsd tabsd ordersd outd] in I. repeat (apply in_app_or in I; destruct I as [I|I]).
    + by_part PQ "tables" @inner_tabs. + by_part PQ "references" @inner_tabs. + by_part PQ "where" @inner_conds.
Qed.
Lemma unlooped_avoids : forall k q own h rs, own q = None -> insides k q own h rs -> unlooped h q -> Forall (avoids h q) rs.
Proof.
  intros k q own h rs NQ IN UN. apply Forall_forall. intros r I R. destruct (insides_under _ _ _ _ _ _ IN I) as (l & s & O & RL & F).
  apply (UN l); [intros ->; congruence|exact RL|]. eapply reach_step; eauto.
Qed.
Lemma insides_reach : forall k q own h rs r, insides k q own h rs -> In r rs -> reach h (RPtr q) r.
Proof. intros k q own h rs r IN I. destruct (insides_under _ _ _ _ _ _ IN I) as (l & s & O & RL & F). eapply reach_trans; [exact RL|]. apply reach_one. exact F. Qed.
Lemma laid_okr : forall k q own h rs, insides k q own h rs -> Forall (okr own h) rs.
Proof. intros [] q own h rs (x & P & ->); [apply (g_okr _ _ _ (good_sel q)) in P|apply (g_okr _ _ _ (good_ins q)) in P|apply (g_okr _ _ _ (good_upd q)) in P|apply (g_okr _ _ _ (good_del q)) in P]; exact P. Qed.

(** ** Queries other objects change around *)
Lemma laid_keeps : forall k q own h own' h', keeps own h own' h' -> (forall p, whole own q p -> get h' p = get h p) -> laid k q own h -> laid k q own' h'.
Proof.
  intros k q own h own' h' K F. assert (F' : forall p kk, True -> at_slot own q kk p -> get h' p = get h p) by (intros; apply F; eapply slot_whole; eauto).
  intros P. destruct k; destruct P as (x & P); exists x; [eapply (g_frame _ _ _ (good_sel q))|eapply (g_frame _ _ _ (good_ins q))|eapply (g_frame _ _ _ (good_upd q))|eapply (g_frame _ _ _ (good_del q))]; eauto.
Qed.
Lemma said_keeps : forall k q own h own' h' v, inv own h -> keeps own h own' h' -> (forall p, reach h (RPtr q) (RPtr p) -> get h' p = get h p) ->
  (forall p, whole own q p -> get h' p = get h p) -> said k q own h v -> said k q own' h' v.
Proof.
  intros k q own h own' h' v J K FR F S. assert (F' : forall p kk, True -> at_slot own q kk p -> get h' p = get h p) by (intros; apply F; eapply slot_whole; eauto).
  destruct k; destruct S as (x & u & -> & P & V & AV); exists x, u; (split; [reflexivity|]).
  - assert (IN : insides QSelect q own h (pd_refs (seld q) x)) by (eexists; eauto). pose proof (laid_okr _ _ _ _ _ IN) as OK.
    split; [eapply (g_frame _ _ _ (good_sel q)); eauto|]. split.
    + eapply (g_val _ _ _ (good_sel q)); eauto; [apply J|eapply Forall_impl; [|exact OK]; intros; eapply okr_valid; eauto|]. intros r p I R. apply FR. eapply reach_trans; [eapply insides_reach; eauto|exact R].
    + rewrite Forall_forall in *. intros r I R. apply (AV r I). eapply reach_frame; [|exact R]. intros p RP. apply FR. eapply reach_trans; [eapply insides_reach; eauto|exact RP].
  - assert (IN : insides QInsert q own h (pd_refs (insd q) x)) by (eexists; eauto). pose proof (laid_okr _ _ _ _ _ IN) as OK.
    split; [eapply (g_frame _ _ _ (good_ins q)); eauto|]. split.
    + eapply (g_val _ _ _ (good_ins q)); eauto; [apply J|eapply Forall_impl; [|exact OK]; intros; eapply okr_valid; eauto|]. intros r p I R. apply FR. eapply reach_trans; [eapply insides_reach; eauto|exact R].
    + rewrite Forall_forall in *. intros r I R. apply (AV r I). eapply reach_frame; [|exact R]. intros p RP. apply FR. eapply reach_trans; [eapply insides_reach; eauto|exact RP].
  - assert (IN : insides QUpdate q own h (pd_refs (updd q) x)) by (eexists; eauto). pose proof (laid_okr _ _ _ _ _ IN) as OK.
    split; [eapply (g_frame _ _ _ (good_upd q)); eauto|]. split.
    + eapply (g_val _ _ _ (good_upd q)); eauto; [apply J|eapply Forall_impl; [|exact OK]; intros; eapply okr_valid; eauto|]. intros r p I R. apply FR. eapply reach_trans; [eapply insides_reach; eauto|exact R].
    + rewrite Forall_forall in *. intros r I R. apply (AV r I). eapply reach_frame; [|exact R]. intros p RP. apply FR. eapply reach_trans; [eapply insides_reach; eauto|exact RP].
  - assert (IN : insides QDelete q own h (pd_refs (deld q) x)) by (eexists; eauto). pose proof (laid_okr _ _ _ _ _ IN) as OK.
    split; [eapply (g_frame _ _ _ (good_del q)); eauto|]. split.
    + eapply (g_val _ _ _ (good_del q)); eauto; [apply J|eapply Forall_impl; [|exact OK]; intros; eapply okr_valid; eauto|]. intros r p I R. apply FR. eapply reach_trans; [eapply insides_reach; eauto|exact R].
    + rewrite Forall_forall in *. intros r I R. apply (AV r I). eapply reach_frame; [|exact R]. intros p RP. apply FR. eapply reach_trans; [eapply insides_reach; eauto|exact RP].
Qed.

(** ** One call *)
Definition eats (G : addr -> Prop) (h : heap) (c : hcall) : Prop := forall a, join_given c = Some a -> eaten G h a.
Lemma call_laid : forall W (G : addr -> Prop) q own h c h' o, inv own h -> usable own h G -> laid (of_kind c) q own h -> Forall (okr own h) (call_refs c) ->
  Forall (gin G h) (call_refs c) -> eats G h c -> call W q c h = (h', o) -> exists own', after G (whole own q) own h own' h' /\ laid (of_kind c) q own' h'.
Proof.
  intros W G q own h [op|op|op|op|[] f n] h' o J U (x & P) OR GR EA R; cbn [of_kind call call_refs] in *.
  - destruct (sel_call_acts W G q own h x op h' o J U P OR GR) as (own' & x' & A & P' & _); [intros ty a ->; apply EA; reflexivity|exact R|]. exists own'. split; [exact A|]. exists x'. exact P'.
  - destruct (ins_call_acts W G q own h x op h' o J U P OR GR) as (own' & x' & A & P' & _); [exact R|]. exists own'. split; [exact A|]. exists x'. exact P'.
  - destruct (upd_call_acts W G q own h x op h' o J U P OR GR) as (own' & x' & A & P' & _); [intros ty a ->; apply EA; reflexivity|exact R|]. exists own'. split; [exact A|]. exists x'. exact P'.
  - destruct (del_call_acts W G q own h x op h' o J U P OR GR) as (own' & x' & A & P' & _); [intros ty a ->; apply EA; reflexivity|exact R|]. exists own'. split; [exact A|]. exists x'. exact P'.
  - destruct (sel_show_acts W G q own h x n h' o J U P R) as (own' & x' & A & P' & _). exists own'. split; [exact A|]. exists x'. exact P'.
  - destruct (ins_show_acts W G q own h x n h' o J U P R) as (own' & x' & A & P' & _). exists own'. split; [exact A|]. exists x'. exact P'.
  - destruct (upd_show_acts W G q own h x n h' o J U P R) as (own' & x' & A & P' & _). exists own'. split; [exact A|]. exists x'. exact P'.
  - destruct (del_show_acts W G q own h x f n h' o J U P R) as (own' & x' & A & P' & _). exists own'. split; [exact A|]. exists x'. exact P'.
Qed.
Lemma call_said : forall W q own h c d v h' o, inv own h -> said (of_kind c) q own h v -> Forall (okr own h) (call_refs c) ->
  Forall (gin nothing h) (call_refs c) -> eats nothing h c -> call_stands h c d -> Forall (avoids h q) (call_refs c) -> call W q c h = (h', o) ->
  exists own', after nothing (whole own q) own h own' h' /\ said (of_kind c) q own' h' (fst (called W v d)) /\ snd (called W v d) = o.
Proof.
  intros W q own h c d v h' o J S OR GR EA CS AV R. assert (U : usable own h nothing) by (intros y []). assert (NG : forall y, ~ nothing y) by (intros y []).
  destruct c as [op|op|op|op|[] f n]; destruct d as [op'|op'|op'|op'|f' n']; try contradiction; destruct S as (x & u & -> & P & V & AR); cbn [of_kind call call_refs call_stands called] in *.
  - destruct (sel_call_acts W nothing q own h x op h' o J U P OR GR) as (own' & x' & A & P' & X); [intros ty a ->; apply EA; reflexivity|exact R|].
    destruct (X NG u (sel_step W u op')) as (V' & E & AR'); [eexists; split; [exact CS|]; split; [exact AV|reflexivity]|exact V|exact AR|]. exists own'. split; [exact A|]. split; [|exact E]. eexists x', _. split; [reflexivity|]. auto.
  - destruct (ins_call_acts W nothing q own h x op h' o J U P OR GR) as (own' & x' & A & P' & X); [exact R|].
    destruct (X NG u (ins_step W u op')) as (V' & E & AR'); [eexists; split; [exact CS|]; split; [exact AV|reflexivity]|exact V|exact AR|]. exists own'. split; [exact A|]. split; [|exact E]. eexists x', _. split; [reflexivity|]. auto.
  - destruct (upd_call_acts W nothing q own h x op h' o J U P OR GR) as (own' & x' & A & P' & X); [intros ty a ->; apply EA; reflexivity|exact R|].
    destruct (X NG u (upd_step W u op')) as (V' & E & AR'); [eexists; split; [exact CS|]; split; [exact AV|reflexivity]|exact V|exact AR|]. exists own'. split; [exact A|]. split; [|exact E]. eexists x', _. split; [reflexivity|]. auto.
  - destruct (del_call_acts W nothing q own h x op h' o J U P OR GR) as (own' & x' & A & P' & X); [intros ty a ->; apply EA; reflexivity|exact R|].
    destruct (X NG u (del_step W u op')) as (V' & E & AR'); [eexists; split; [exact CS|]; split; [exact AV|reflexivity]|exact V|exact AR|]. exists own'. split; [exact A|]. split; [|exact E]. eexists x', _. split; [reflexivity|]. auto.
  - destruct CS as [<- <-]. destruct (sel_show_acts W nothing q own h x n h' o J U P R) as (own' & x' & A & P' & X). destruct (X NG u _ eq_refl V AR) as (V' & E & AR').
    exists own'. split; [exact A|]. cbn [shown]. split; [|exact E]. eexists x', _. split; [reflexivity|]. auto.
  - destruct CS as [<- <-]. destruct (ins_show_acts W nothing q own h x n h' o J U P R) as (own' & x' & A & P' & X). destruct (X NG u _ eq_refl V AR) as (V' & E & AR').
    exists own'. split; [exact A|]. destruct u as [rp ig tabs rows dup cf up]. cbn [shown]. split; [|exact E]. eexists x', _. split; [reflexivity|]. auto.
  - destruct CS as [<- <-]. destruct (upd_show_acts W nothing q own h x n h' o J U P R) as (own' & x' & A & P' & X). destruct (X NG u _ eq_refl V AR) as (V' & E & AR').
    exists own'. split; [exact A|]. destruct u as [ig tabs vals wh al]. cbn [shown]. split; [|exact E]. eexists x', _. split; [reflexivity|]. auto.
  - destruct CS as [<- <-]. destruct (del_show_acts W nothing q own h x f n h' o J U P R) as (own' & x' & A & P' & X). destruct (X NG u _ eq_refl V AR) as (V' & E & AR').
    exists own'. split; [exact A|]. destruct u as [ig tabs rf wh al]. cbn [shown]. destruct f; (split; [|exact E]; eexists x', _; split; [reflexivity|]; auto).
Qed.
