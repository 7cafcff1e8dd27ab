(** Lemmas: join with a dictionary of one entry, which loses the entry. *)
From Coq Require Import Lia.
From Verif Require Import Base NumFmt Value Backend Eq Render ParseArgs Build Queries Heap SpecHeap PfHeap PfHeapAlike PfHeapFrame PfHeapView HeapBuild SpecShare PfShare PfOwn PfParts PfNewItems PfMethods PfLayout PfOrders PfTables PfJoins PfCells PfConflict PfQueries PfCalls PfReading PfInside.
Open Scope nat_scope.
Local Arguments view : simpl never.

Definition emptied (h : heap) (d : addr) : heap := put h d (MkObj ODict []).
Definition joins_new (ty : jointy) (p : addr) (n a : ref) : hm unit := doh t <- last_table (RPtr p); doh x <- new_table n a; join_rest ty t x.
Lemma usable_none : forall own h, usable own h nothing.
Proof. intros own h y []. Qed.
(** The join of the values, on each kind of query. *)
Definition dict_join {Q} (q : addr) (h : heap) (n a : ref) (step : Q -> val -> Q * outcome) (v : Q) (y : Q * outcome) : Prop :=
  exists vn va, stands h n vn /\ stands h a va /\ avoids h q n /\ avoids h q a /\ y = step v (VDict [(vn, va)]).
Lemma sel_dict : forall W ty q own h h1 x d ll n a h' o, inv own h -> pd_at (seld q) own h x -> own d = None -> get h d = Some (MkObj ODict ll) -> pairs_of ll = [(n, a)] ->
  h1 = emptied h d -> inv own h1 -> pd_at (seld q) own h1 x -> okr own h1 n -> okr own h1 a -> h_sel_call W q (HSJoin ty (RPtr d)) h = (h', o) ->
  (h' = h /\ exists e, o = Err e /\ forall v va, pd_val (seld q) h x v -> sel_step W v (SJoin ty va) = (v, Err e)) \/
  acts (seld q) nothing (fun own => whole own q) q own h1 x h' o (dict_join q h1 n a (fun v va => sel_step W v (SJoin ty va))).
Proof.
  intros W ty q own h h1 [[d0 a0] (b & x1 & x2 & x3 & x4 & x5 & x6 & x7 & x8 & x9 & x10)] d ll n a h' o J PA OD GD PL E J1 PA1 ON OA R.
  destruct PA as (PQ & _ & _ & P3 & _). cbn [fst snd] in *. cbn [h_sel_call] in R. go_part PQ "tables" R.
  destruct (h_join_dict _ _ _ _ _ _ _ _ _ _ _ _ _ _ _ J OD P3 GD PL R) as [(-> & e & -> & X)|[RR FO]].
  { left. split; [reflexivity|]. exists e. split; [reflexivity|]. intros v va (_ & _ & _ & V3 & _). specialize (X (s_tabs v) va V3). destruct v as [v1 v2 v3 v4 v5 v6 v7 v8 v9 v10]. cbn [sel_step s_tabs s_opts s_cols s_where s_group s_having s_order s_limit s_out s_forupd] in *. rewrite X. reflexivity. }
  right. clear PQ P3. destruct PA1 as (PQ & P1 & P2 & P3 & P4 & P5 & P6 & P7 & P8 & P9 & P10). cbn [fst snd] in *. destruct (qobj_kind _ _ _ _ _ _ _ _ _ PQ) as [KQ NQ].
  pose proof (usable_none own h1) as U. unfold emptied in E. rewrite <- E in RR. clear R J E.
  outer "tables".
  - snd_of. snd_of. snd_of. fst_of. eapply (join_new_spec ty nothing q "tables" CSelect); try exact RR; eauto.
  - intros u y (vn & va & S1 & S2 & A1 & A2 & ->). eexists. split; [deep; exists vn, va; repeat (split; [eassumption|]); reflexivity|]. cbn [sel_step]. rewrite tables_join_eq, FO. cbn [join_target]. unfold sel_t. destruct u as [v1 v2 v3 v4 v5 v6 v7 v8 v9 v10]. cbn [s_opts s_cols s_tabs s_where s_group s_having s_order s_limit s_out s_forupd]. done.
Qed.
Lemma upd_dict : forall W ty q own h h1 x d ll n a h' o, inv own h -> pd_at (updd q) own h x -> own d = None -> get h d = Some (MkObj ODict ll) -> pairs_of ll = [(n, a)] ->
  h1 = emptied h d -> inv own h1 -> pd_at (updd q) own h1 x -> okr own h1 n -> okr own h1 a -> h_upd_call W q (HUJoin ty (RPtr d)) h = (h', o) ->
  (h' = h /\ exists e, o = Err e /\ forall v va, pd_val (updd q) h x v -> upd_step W v (UJoin ty va) = (v, Err e)) \/
  acts (updd q) nothing (fun own => whole own q) q own h1 x h' o (dict_join q h1 n a (fun v va => upd_step W v (UJoin ty va))).
Proof.
  intros W ty q own h h1 [[d0 a0] (b & x1 & x2 & x3 & x4)] d ll n a h' o J PA OD GD PL E J1 PA1 ON OA R.
  destruct PA as (PQ & _ & P2 & _ & _). cbn [fst snd] in *. cbn [h_upd_call] in R. go_part PQ "tables" R.
  destruct (h_join_dict _ _ _ _ _ _ _ _ _ _ _ _ _ _ _ J OD P2 GD PL R) as [(-> & e & -> & X)|[RR FO]].
  { left. split; [reflexivity|]. exists e. split; [reflexivity|]. intros [ig tabs vals wh al] va (_ & _ & V3 & _). specialize (X tabs va V3). cbn [upd_step]. rewrite X. reflexivity. }
  right. clear PQ P2. destruct PA1 as (PQ & P1 & P2 & P3 & P4). cbn [fst snd] in *. destruct (qobj_kind _ _ _ _ _ _ _ _ _ PQ) as [KQ NQ].
  pose proof (usable_none own h1) as U. unfold emptied in E. rewrite <- E in RR. clear R J E.
  outer "tables".
  - snd_of. snd_of. fst_of. eapply (join_new_spec (j3 ty) nothing q "tables" CUpdate); try exact RR; eauto.
  - intros [ig tabs vals wh al] y (vn & va & S1 & S2 & A1 & A2 & ->). eexists. split; [deep; exists vn, va; repeat (split; [eassumption|]); reflexivity|]. cbn [upd_step upd_t]. rewrite tables_join_eq, FO. cbn [join_target]. done.
Qed.
Lemma del_dict : forall W ty q own h h1 x d ll n a h' o, inv own h -> pd_at (deld q) own h x -> own d = None -> get h d = Some (MkObj ODict ll) -> pairs_of ll = [(n, a)] ->
  h1 = emptied h d -> inv own h1 -> pd_at (deld q) own h1 x -> okr own h1 n -> okr own h1 a -> h_del_call W q (HDJoin ty (RPtr d)) h = (h', o) ->
  (h' = h /\ exists e, o = Err e /\ forall v va, pd_val (deld q) h x v -> del_step W v (DJoin ty va) = (v, Err e)) \/
  acts (deld q) nothing (fun own => whole own q) q own h1 x h' o (dict_join q h1 n a (fun v va => del_step W v (DJoin ty va))).
Proof.
  intros W ty q own h h1 [[d0 a0] (b & x1 & x2 & x3 & x4)] d ll n a h' o J PA OD GD PL E J1 PA1 ON OA R.
  destruct PA as (PQ & _ & _ & P2 & _). cbn [fst snd] in *. cbn [h_del_call] in R. go_part PQ "references" R.
  destruct (h_join_dict _ _ _ _ _ _ _ _ _ _ _ _ _ _ _ J OD P2 GD PL R) as [(-> & e & -> & X)|[RR FO]].
  { left. split; [reflexivity|]. exists e. split; [reflexivity|]. intros [ig tabs refs wh al] va (_ & _ & _ & V3 & _). specialize (X refs va V3). cbn [del_step]. rewrite X. reflexivity. }
  right. clear PQ P2. destruct PA1 as (PQ & P1 & P2 & P3 & P4). cbn [fst snd] in *. destruct (qobj_kind _ _ _ _ _ _ _ _ _ PQ) as [KQ NQ].
  pose proof (usable_none own h1) as U. unfold emptied in E. rewrite <- E in RR. clear R J E.
  outer "references".
  - snd_of. snd_of. snd_of. fst_of. eapply (join_new_spec (j3 ty) nothing q "references" CDelete); try exact RR; eauto.
  - intros [ig tabs refs wh al] y (vn & va & S1 & S2 & A1 & A2 & ->). eexists. split; [deep; exists vn, va; repeat (split; [eassumption|]); reflexivity|]. cbn [del_step del_t]. rewrite tables_join_eq, FO. cbn [join_target]. done.
Qed.

Lemma call_said_dict : forall W q own h c d ll n a dd v h' o, inv own h -> said (of_kind c) q own h v -> own d = None -> join_given c = Some (RPtr d) ->
  get h d = Some (MkObj ODict ll) -> pairs_of ll = [(n, a)] -> ~ reach h (RPtr q) (RPtr d) -> ~ reach h n (RPtr d) -> ~ reach h a (RPtr d) ->
  call_stands h c dd -> avoids h q (RPtr d) -> call W q c h = (h', o) ->
  exists own', after (fun p => p = d) (whole own q) own h own' h' /\ said (of_kind c) q own' h' (fst (called W v dd)) /\ snd (called W v dd) = o.
Proof.
  intros W q own h c d ll n a dd v h' o J S OD JG GD PL NQ NN NA CS AV R. set (h1 := emptied h d).
  assert (A1 : after (fun p => p = d) (whole own q) own h own h1) by (eapply after_write; [exact J|exact GD|left; reflexivity|intros ? ? []]).
  assert (LD : d < List.length h) by (eapply get_lt; eauto).
  assert (FD : forall p, p <> d -> get h1 p = get h p) by (intros p N; apply get_put_other; exact N).
  pose proof (laid_kind _ _ _ _ (said_laid _ _ _ _ _ S)) as [KQ OQ].
  assert (WD : forall p, whole own q p -> get h1 p = get h p).
  { intros p WH. apply FD. intros ->. destruct WH as [->|[s OS]]; [unfold kind_of in KQ; rewrite GD in KQ; discriminate|congruence]. }
  destruct (pairs_in ll n a) as [[b1 I1] [b2 I2]]; [rewrite PL; left; reflexivity|].
  assert (OK : okr own h (RPtr d)) by (split; assumption).
  assert (ON : okr own h n) by (eapply (el_part _ _ (okr_elements _ _ J)); [exact OK|exact GD|discriminate|exact I1]).
  assert (OA : okr own h a) by (eapply (el_part _ _ (okr_elements _ _ J)); [exact OK|exact GD|discriminate|exact I2]).
  assert (ON1 : okr own h1 n) by (eapply okr_keeps; [apply A1|exact ON]). assert (OA1 : okr own h1 a) by (eapply okr_keeps; [apply A1|exact OA]).
  assert (FN : forall p, reach h n (RPtr p) -> get h1 p = get h p) by (intros p RP; apply FD; intros ->; contradiction).
  assert (FA : forall p, reach h a (RPtr p) -> get h1 p = get h p) by (intros p RP; apply FD; intros ->; contradiction).
  assert (AN : avoids h1 q n). { intros RN. apply AV. eapply reach_step; [eapply refers_get; [exact GD|exact I1]|]. eapply reach_frame; [exact FN|exact RN]. }
  assert (AA : avoids h1 q a). { intros RN. apply AV. eapply reach_step; [eapply refers_get; [exact GD|exact I2]|]. eapply reach_frame; [exact FA|exact RN]. }
  assert (DV : forall vd, stands h (RPtr d) vd -> exists vn va, vd = VDict [(vn, va)] /\ stands h1 n vn /\ stands h1 a va).
  { intros vd SD. apply body_iff in SD. unfold d_body, obj_at in SD. rewrite GD in SD. cbn [bind o_kind o_refs] in SD. rewrite PL in SD. cbn [mapM] in SD. unfold d_pair in SD. cbn [fst snd] in SD.
    destruct (view h n) as [vn|] eqn:VN; [|discriminate]. destruct (view h a) as [va|] eqn:VA; [|discriminate]. cbn in SD. injection SD as <-. apply stands_view in VN, VA. exists vn, va. split; [reflexivity|].
    split; eapply stands_frame; try eassumption; try apply J; eapply okr_valid; eauto. }
  assert (NG : forall y, ~ nothing y) by (intros y []).
  destruct c as [[]|[]|[]|[]|]; cbn in JG; try discriminate; injection JG as ->; destruct dd as [[]|[]|[]|[]|]; cbn in CS; try contradiction; destruct CS as [-> CS]; destruct (DV _ CS) as (vn & va & -> & SN & SA);
    cbn [of_kind called] in *; destruct S as (x & u & -> & P & V & AR).
  - assert (IN : insides QSelect q own h (pd_refs (seld q) x)) by (eexists; eauto). pose proof (laid_okr _ _ _ _ _ IN) as OKR.
    assert (FR : forall r p, In r (pd_refs (seld q) x) -> reach h r (RPtr p) -> get h1 p = get h p) by (intros r p I RP; apply FD; intros ->; apply NQ; eapply reach_trans; [eapply insides_reach; eauto|exact RP]).
    assert (P1 : pd_at (seld q) own h1 x) by (eapply (g_frame _ _ _ (good_sel q)); [apply A1| |exact P]; intros; apply WD; eapply slot_whole; eauto).
    assert (V1 : pd_val (seld q) h1 x u) by (eapply (g_val _ _ _ (good_sel q)); [exact P|apply J|eapply Forall_impl; [|exact OKR]; intros; eapply okr_valid; eauto|exact FR|exact V]).
    assert (AR1 : Forall (avoids h1 q) (pd_refs (seld q) x)) by (rewrite Forall_forall in *; intros r I RP; apply (AR r I); eapply reach_frame; [intros y Y; exact (FR r y I Y)|exact RP]).
    destruct (sel_dict _ _ _ _ _ h1 _ _ _ _ _ _ _ J P OD GD PL eq_refl (proj1 (proj2 A1)) P1 ON1 OA1 R) as [(-> & e & -> & X)|(own' & x' & A & P' & X)].
    + cbn [called]. unfold with_obj. rewrite (X u _ V). exists own. split; [apply after_refl; exact J|]. split; [|reflexivity]. exists x, u. auto.
    + destruct (X NG u _ (ex_intro _ vn (ex_intro _ va (Logic.conj SN (Logic.conj SA (Logic.conj AN (Logic.conj AA eq_refl)))))) V1 AR1) as (V' & E & AR').
      exists own'. split; [eapply after_trans; [exact A1|]; eapply after_more; [| |exact A]; [intros y []|auto]|]. split; [|exact E]. eexists x', _. split; [reflexivity|]. auto.
  - assert (IN : insides QUpdate q own h (pd_refs (updd q) x)) by (eexists; eauto). pose proof (laid_okr _ _ _ _ _ IN) as OKR.
    assert (FR : forall r p, In r (pd_refs (updd q) x) -> reach h r (RPtr p) -> get h1 p = get h p) by (intros r p I RP; apply FD; intros ->; apply NQ; eapply reach_trans; [eapply insides_reach; eauto|exact RP]).
    assert (P1 : pd_at (updd q) own h1 x) by (eapply (g_frame _ _ _ (good_upd q)); [apply A1| |exact P]; intros; apply WD; eapply slot_whole; eauto).
    assert (V1 : pd_val (updd q) h1 x u) by (eapply (g_val _ _ _ (good_upd q)); [exact P|apply J|eapply Forall_impl; [|exact OKR]; intros; eapply okr_valid; eauto|exact FR|exact V]).
    assert (AR1 : Forall (avoids h1 q) (pd_refs (updd q) x)) by (rewrite Forall_forall in *; intros r I RP; apply (AR r I); eapply reach_frame; [intros y Y; exact (FR r y I Y)|exact RP]).
    destruct (upd_dict _ _ _ _ _ h1 _ _ _ _ _ _ _ J P OD GD PL eq_refl (proj1 (proj2 A1)) P1 ON1 OA1 R) as [(-> & e & -> & X)|(own' & x' & A & P' & X)].
    + cbn [called]. unfold with_obj. rewrite (X u _ V). exists own. split; [apply after_refl; exact J|]. split; [|reflexivity]. exists x, u. auto.
    + destruct (X NG u _ (ex_intro _ vn (ex_intro _ va (Logic.conj SN (Logic.conj SA (Logic.conj AN (Logic.conj AA eq_refl)))))) V1 AR1) as (V' & E & AR').
      exists own'. split; [eapply after_trans; [exact A1|]; eapply after_more; [| |exact A]; [intros y []|auto]|]. split; [|exact E]. eexists x', _. split; [reflexivity|]. auto.
  - assert (IN : insides QDelete q own h (pd_refs (deld q) x)) by (eexists; eauto). pose proof (laid_okr _ _ _ _ _ IN) as OKR.
    assert (FR : forall r p, In r (pd_refs (deld q) x) -> reach h r (RPtr p) -> get h1 p = get h p) by (intros r p I RP; apply FD; intros ->; apply NQ; eapply reach_trans; [eapply insides_reach; eauto|exact RP]).
    assert (P1 : pd_at (deld q) own h1 x) by (eapply (g_frame _ _ _ (good_del q)); [apply A1| |exact P]; intros; apply WD; eapply slot_whole; eauto).
    assert (V1 : pd_val (deld q) h1 x u) by (eapply (g_val _ _ _ (good_del q)); [exact P|apply J|eapply Forall_impl; [|exact OKR]; intros; eapply okr_valid; eauto|exact FR|exact V]).
    assert (AR1 : Forall (avoids h1 q) (pd_refs (deld q) x)) by (rewrite Forall_forall in *; intros r I RP; apply (AR r I); eapply reach_frame; [intros y Y; exact (FR r y I Y)|exact RP]).
    destruct (del_dict _ _ _ _ _ h1 _ _ _ _ _ _ _ J P OD GD PL eq_refl (proj1 (proj2 A1)) P1 ON1 OA1 R) as [(-> & e & -> & X)|(own' & x' & A & P' & X)].
    + cbn [called]. unfold with_obj. rewrite (X u _ V). exists own. split; [apply after_refl; exact J|]. split; [|reflexivity]. exists x, u. auto.
    + destruct (X NG u _ (ex_intro _ vn (ex_intro _ va (Logic.conj SN (Logic.conj SA (Logic.conj AN (Logic.conj AA eq_refl)))))) V1 AR1) as (V' & E & AR').
      exists own'. split; [eapply after_trans; [exact A1|]; eapply after_more; [| |exact A]; [intros y []|auto]|]. split; [|exact E]. eexists x', _. split; [reflexivity|]. auto.
Qed.
