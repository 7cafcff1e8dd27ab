(** Lemmas: parts side by side; the parts of a query that are single objects. *)
From Coq Require Import Lia.
From Verif Require Import Base NumFmt Value Backend Eq Render ParseArgs Build Heap SpecHeap PfHeap PfHeapAlike PfHeapFrame PfHeapView HeapBuild SpecShare PfShare PfOwn PfParts PfNewItems PfMethods PfLayout PfOrders PfTables PfJoins.
Open Scope nat_scope.
Local Arguments view : simpl never.

(** The objects a method may use up. *)
Definition usable (own : owner) (h : heap) (G : addr -> Prop) : Prop :=
  forall y, G y -> own y = None /\ (kind_of h y = Some OGen \/ kind_of h y = Some ODict).
Lemma usable_keeps : forall own h own' h' G, keeps own h own' h' -> usable own h G -> usable own' h' G.
Proof.
  intros own h own' h' G (L & O & K) U y Y. destruct (U y Y) as [A B]. split.
  - rewrite O; [exact A|]. destruct B as [B|B]; apply q_lt in B; exact B.
  - destruct B as [B|B]; apply K in B; auto.
Qed.
Lemma usable_own : forall own h G y x, usable own h G -> own y = Some x -> ~ G y.
Proof. intros own h G y x U O Y. destruct (U y Y) as [A _]. congruence. Qed.
Lemma usable_q : forall own h G q c, usable own h G -> kind_of h q = Some (OInst c) -> ~ G q.
Proof. intros own h G q c U K Y. destruct (U q Y) as [_ [B|B]]; congruence. Qed.
Lemma usable_new : forall own h G y, usable own h G -> List.length h <= y -> ~ G y.
Proof. intros own h G y U L Y. destruct (U y Y) as [_ [B|B]]; apply q_lt in B; lia. Qed.

(** The query object itself, or the objects of one part. *)
Definition at_slot (own : owner) (q : addr) (k : option string) : addr -> Prop :=
  match k with None => fun p => p = q | Some k => cell own q k end.
Lemma slot_whole : forall own q k p, at_slot own q k p -> whole own q p.
Proof. intros own q [k|] p H; [eapply whole_cell; exact H|left; exact H]. Qed.
Lemma kept_whole : forall own q h own' h' r, inv own h -> after nothing (whole own q) own h own' h' -> okr own h r -> avoids h q r ->
  (forall p, reach h r (RPtr p) -> get h' p = get h p) /\ avoids h' q r.
Proof.
  intros own q h own' h' r J A O AV. pose proof (avoids_calm _ _ _ _ J O AV) as C. split.
  - eapply calm_frame; eauto; [apply J|eapply okr_valid; eauto].
  - intros R. apply AV. eapply calm_reach; eauto; [apply J|eapply okr_valid; eauto].
Qed.

Record good {L V} (P : partd L V) (q : addr) (S : option string -> Prop) : Prop := {
  g_frame : forall own h x own' h', keeps own h own' h' -> (forall p k, S k -> at_slot own q k p -> get h' p = get h p) -> pd_at P own h x -> pd_at P own' h' x;
  g_okr : forall own h x, pd_at P own h x -> Forall (okr own h) (pd_refs P x);
  g_val : forall own h h' x v, pd_at P own h x -> closed h -> Forall (valid h) (pd_refs P x) ->
    (forall r p, In r (pd_refs P x) -> reach h r (RPtr p) -> get h' p = get h p) -> pd_val P h x v -> pd_val P h' x v }.
Definition prodd {L1 V1 L2 V2} (P1 : partd L1 V1) (P2 : partd L2 V2) : partd (L1 * L2) (V1 * V2) :=
  MkPartd (fun own h x => pd_at P1 own h (fst x) /\ pd_at P2 own h (snd x)) (fun h x v => pd_val P1 h (fst x) (fst v) /\ pd_val P2 h (snd x) (snd v))
    (fun x => pd_refs P1 (fst x) ++ pd_refs P2 (snd x)).
Lemma good_prod : forall L1 V1 L2 V2 (P1 : partd L1 V1) (P2 : partd L2 V2) q S1 S2, good P1 q S1 -> good P2 q S2 ->
  good (prodd P1 P2) q (fun k => S1 k \/ S2 k).
Proof.
  intros L1 V1 L2 V2 P1 P2 q S1 S2 [A1 A2 A3] [B1 B2 B3]. split.
  - intros own h [x1 x2] own' h' K F [X Y]. split; [eapply A1|eapply B1]; eauto.
  - intros own h [x1 x2] [X Y]. apply Forall_app. split; [eapply A2|eapply B2]; eauto.
  - intros own h h' [x1 x2] [v1 v2] [X Y] C VA F [P Q]. apply Forall_app in VA. destruct VA. split; [eapply A3|eapply B3]; eauto.
    + intros r p I. apply F. apply in_or_app. left. exact I.
    + intros r p I. apply F. apply in_or_app. right. exact I.
Qed.
(** A part that another part's method leaves alone. *)
Lemma bystander : forall L V (P : partd L V) (G : addr -> Prop) q S k own h x own' h', good P q S -> ~ S k -> inv own h -> own q = None -> usable own h G ->
  (exists c, kind_of h q = Some (OInst c)) ->
  after G (at_slot own q k) own h own' h' -> pd_at P own h x ->
  pd_at P own' h' x /\ ((forall y, ~ G y) -> forall v, pd_val P h x v -> Forall (avoids h q) (pd_refs P x) -> pd_val P h' x v /\ Forall (avoids h' q) (pd_refs P x)).
Proof.
  intros L V P G q S k own h x own' h' GP NS J NQ U [c KQ] A PA. split.
  - eapply (g_frame _ _ _ GP); [apply A| |exact PA]. intros p k' Sk AT. destruct A as (_ & _ & F).
    assert (LP : p < List.length h). { destruct k' as [k'|]; [destruct AT as [s AT]; eapply owned_lt; eauto|cbn in AT; subst p; eapply q_lt; eauto]. }
    destruct (F p LP) as [E|[X|X]]; [exact E| |].
    + exfalso. destruct k' as [k'|]; [destruct AT as [s AT]; eapply usable_own; eauto|cbn in AT; subst p; eapply usable_q; eauto].
    + exfalso. destruct k as [k|], k' as [k'|]; cbn in AT, X.
      * destruct AT as [s AT], X as [s' X]. rewrite AT in X. injection X as <- <-. contradiction.
      * subst p. destruct X as [s' X]. congruence.
      * subst p. destruct AT as [s AT]. congruence.
      * contradiction.
  - intros NG v PV AV.
    assert (A' : after nothing (whole own q) own h own' h'). { eapply after_more; [| |exact A]; [intros y Y; exact (NG y Y)|apply slot_whole]. }
    pose proof (g_okr _ _ _ GP _ _ _ PA) as OK. split.
    + eapply (g_val _ _ _ GP); [exact PA|apply J| | |exact PV].
      * eapply Forall_impl; [|exact OK]. intros; eapply okr_valid; eauto.
      * rewrite Forall_forall in OK, AV. intros r p I. apply (kept_whole own q h own' h' r); auto.
    + rewrite Forall_forall in OK, AV |- *. intros r I. apply (kept_whole own q h own' h' r); auto.
Qed.
Lemma acts_fst : forall L1 V1 L2 V2 (P1 : partd L1 V1) (P2 : partd L2 V2) G q S k c own h x1 x2 h' o K,
  good P2 q S -> ~ S k -> inv own h -> own q = None -> usable own h G -> kind_of h q = Some (OInst c) -> pd_at P2 own h x2 ->
  acts P1 G (fun own => at_slot own q k) q own h x1 h' o K ->
  acts (prodd P1 P2) G (fun own => at_slot own q k) q own h (x1, x2) h' o (fun v y => exists y1, K (fst v) y1 /\ y = ((fst y1, snd v), snd y1)).
Proof.
  intros L1 V1 L2 V2 P1 P2 G q S k c own h x1 x2 h' o K GP NS J NQ U KQ PA (own' & x1' & A & B & D).
  destruct (bystander _ _ P2 G q S k own h x2 own' h' GP NS J NQ U (ex_intro _ c KQ) A PA) as [E F].
  exists own', (x1', x2). split; [exact A|]. split; [split; auto|].
  intros NG [v1 v2] y (y1 & KK & ->) [PV1 PV2] AV. cbn [prodd pd_refs fst snd] in *. apply Forall_app in AV. destruct AV as [AV1 AV2].
  destruct (D NG _ _ KK PV1 AV1) as (R1 & R2 & R3). destruct (F NG _ PV2 AV2) as [R4 R5]. split; [split; auto|]. split; [exact R2|]. apply Forall_app. auto.
Qed.
Lemma acts_snd : forall L1 V1 L2 V2 (P1 : partd L1 V1) (P2 : partd L2 V2) G q S k c own h x1 x2 h' o K,
  good P1 q S -> ~ S k -> inv own h -> own q = None -> usable own h G -> kind_of h q = Some (OInst c) -> pd_at P1 own h x1 ->
  acts P2 G (fun own => at_slot own q k) q own h x2 h' o K ->
  acts (prodd P1 P2) G (fun own => at_slot own q k) q own h (x1, x2) h' o (fun v y => exists y1, K (snd v) y1 /\ y = ((fst v, fst y1), snd y1)).
Proof.
  intros L1 V1 L2 V2 P1 P2 G q S k c own h x1 x2 h' o K GP NS J NQ U KQ PA (own' & x2' & A & B & D).
  destruct (bystander _ _ P1 G q S k own h x1 own' h' GP NS J NQ U (ex_intro _ c KQ) A PA) as [E F].
  exists own', (x1, x2'). split; [exact A|]. split; [split; auto|].
  intros NG [v1 v2] y (y1 & KK & ->) [PV1 PV2] AV. cbn [prodd pd_refs fst snd] in *. apply Forall_app in AV. destruct AV as [AV1 AV2].
  destruct (D NG _ _ KK PV2 AV2) as (R1 & R2 & R3). destruct (F NG _ PV1 AV1) as [R4 R5]. split; [split; auto|]. split; [exact R2|]. apply Forall_app. auto.
Qed.

(** ** Which parts are good *)
Definition key (k : string) : option string -> Prop := fun k' => k' = Some k.
Lemma fixed_key : forall own q k h h', (forall p k', key k k' -> at_slot own q k' p -> get h' p = get h p) -> fixed own q k (fun _ => True) h h'.
Proof. intros own q k h h' F p s _ O. apply (F p (Some k) eq_refl). exists s. exact O. Qed.
Lemma frame_stands : forall h h' r v, closed h -> valid h r -> (forall p, reach h r (RPtr p) -> get h' p = get h p) -> stands h r v -> stands h' r v.
Proof. intros. eapply stands_frame; eauto. Qed.
Lemma good_conds : forall A (see : heap -> ref -> res A) q k c sep more p,
  (forall h h' r x, closed h -> valid h r -> (forall p, reach h r (RPtr p) -> get h' p = get h p) -> see h r = Ok x -> see h' r = Ok x) ->
  good (condsd see q k c sep more p) q (key k).
Proof.
  intros A see q k c sep more p SF. split.
  - intros own h x own' h' K F PA. eapply conds_frame; [exact K|apply fixed_key; exact F|exact PA].
  - intros own h x (l & _ & O). exact O.
  - intros own h h' x v _ C VA F PV. cbn [condsd pd_val pd_refs] in *. induction PV as [|r y x v E PV IH]; constructor.
    + inversion VA; subst. eapply SF; eauto. intros p0. apply F. left. reflexivity.
    + apply IH; [inversion VA; assumption|]. intros r0 p0 I. apply F. right. exact I.
Qed.
Lemma good_orders : forall q k c p, good (ordersd q k c p) q (key k).
Proof.
  intros q k c p. split.
  - intros own h x own' h' K F PA. eapply orders_frame; [exact K|apply fixed_key; exact F|exact PA].
  - intros own h x (l & items & _ & A). apply ats_okf in A. cbn [ordersd pd_refs]. clear - A. induction A; constructor; auto.
  - intros own h h' x v _ C VA F PV. cbn [ordersd pd_val pd_refs] in *. induction PV as [|r y x v [E1 E2] PV IH]; constructor.
    + inversion VA; subst. split; [|exact E2]. eapply frame_stands; eauto. intros p0. apply F. left. reflexivity.
    + apply IH; [inversion VA; assumption|]. intros r0 p0 I. apply F. right. exact I.
Qed.
Lemma good_tabs : forall q k c p, good (tabsd q k c p) q (key k).
Proof.
  intros q k c p. split.
  - intros own h x own' h' K F PA. eapply tabs_frame; [exact K|apply fixed_key; exact F|exact PA].
  - intros own h x (l & items & _ & A). eapply tabs_okr; eauto.
  - intros own h h' x v _ C VA F PV. cbn [tabsd pd_val pd_refs] in *. eapply tabs_keep; [|exact PV].
    rewrite Forall_forall in VA. intros r w I S. eapply frame_stands; [exact C|exact (VA r I)|intros p0; exact (F r p0 I)|exact S].
Qed.

(** ** Single objects *)
Definition celld {V} (q : addr) (k : string) (c : cls) (p : addr) (mk : V -> list (label * ref)) : partd V V :=
  MkPartd (fun own h x => get h p = Some (MkObj (OInst c) (mk x)) /\ own p = Some (q, (k, PPart))) (fun h x v => x = v) (fun _ => []).
Definition atoms (l : list (label * ref)) : Prop := forall a r, In (a, r) l -> exists x, r = RAtom x.
Lemma good_cell : forall V q k c p (mk : V -> list (label * ref)), good (celld q k c p mk) q (key k).
Proof.
  intros V q k c p mk. split.
  - intros own h x own' h' K F [A B]. split; [|eapply keep_own; eauto]. rewrite (F p (Some k) eq_refl); [exact A|]. exists PPart. exact B.
  - intros. constructor.
  - auto.
Qed.
Lemma cell_change : forall V (G : addr -> Prop) q k c p (mk : V -> list (label * ref)) own h x x' f, inv own h -> pd_at (celld q k c p mk) own h x ->
  f (mk x) = mk x' -> atoms (mk x') ->
  exists h', change (RPtr p) f h = (h', Ok tt) /\ after G (cell own q k) own h own h' /\ pd_at (celld q k c p mk) own h' x'.
Proof.
  intros V G q k c p mk own h x x' f J [A B] E AT. unfold change. rewrite A, E. eexists. split; [reflexivity|]. split.
  - eapply after_write; [exact J|exact A|right; exists PPart; exact B|]. intros a r I. left. destruct (AT _ _ I) as [y ->]. exact Logic.I.
  - split; [apply get_put_same; eapply get_lt; eauto|exact B].
Qed.
Lemma cell_acts : forall V (G : addr -> Prop) q k c p (mk : V -> list (label * ref)) own h x x' f h' o (K : V -> V * outcome -> Prop), inv own h -> pd_at (celld q k c p mk) own h x ->
  f (mk x) = mk x' -> atoms (mk x') -> change (RPtr p) f h = (h', o) -> ((forall y, ~ G y) -> forall y, K x y -> y = (x', Ok tt)) ->
  acts (celld q k c p mk) G (fun own => cell own q k) q own h x h' o K.
Proof.
  intros V G q k c p mk own h x x' f h' o K J PA E AT R HK. destruct (cell_change V G q k c p mk own h x x' f J PA E AT) as (h1 & E1 & A1 & P1).
  rewrite E1 in R. injection R as <- <-. exists own, x'. split; [exact A1|]. split; [exact P1|]. intros NG v y KK PV _. cbn in PV. subst v.
  rewrite (HK NG y KK). cbn. auto.
Qed.
Ltac atomic := let H := fresh in intros ? ? H; cbn in H; repeat (destruct H as [H|H]; [injection H as <- <-; eexists; reflexivity|]); contradiction.

(** limit *)
Definition oz (o : option Z) : ref := match o with Some z => aint z | None => r_none end.
Definition lim_refs (l : limits) : list (label * ref) := [(LAttr "_limit", oz (l_limit l)); (LAttr "_offset", oz (l_offset l))].
Definition limd (q : addr) (k : string) (p : addr) := celld q k CLimit p lim_refs.
Lemma atoms_lim : forall l, atoms (lim_refs l).
Proof. intros [[a|] [b|]]; atomic. Qed.
Lemma h_offset_spec : forall (G : addr -> Prop) q k p own h x r h' o, inv own h -> pd_at (limd q k p) own h x -> h_offset (RPtr p) r h = (h', o) ->
  acts (limd q k p) G (fun own => cell own q k) q own h x h' o (fun v y => exists vr, stands h r vr /\ y = set_offset v vr).
Proof.
  intros G q k p own h x r h' o J PA R. unfold h_offset in R. unfold hbind at 1, look at 1 in R. destruct (view h r) as [v|e] eqn:V.
  2: { injection R as <- <-. apply acts_same; auto. intros _ v y (vr & S & _) _. apply view_cases in S. congruence. }
  assert (EV : forall vr, stands h r vr -> vr = v) by (intros vr S; apply view_cases in S; congruence).
  unfold hbind at 1, check at 1 in R. destruct (check_type [TNone; TInt] v) eqn:CT.
  2: { injection R as <- <-. apply acts_same; auto. intros _ w y (vr & S & ->) _. rewrite (EV _ S). unfold set_offset. rewrite CT. reflexivity. }
  destruct (truthy v) eqn:T.
  - unfold hbind at 1, look at 1 in R. destruct (py_int v) as [z|e] eqn:PI.
    + eapply cell_acts with (x' := MkLimits (l_limit x) (Some z)); eauto; [reflexivity|apply atoms_lim|].
      intros _ y (vr & S & ->). rewrite (EV _ S). unfold set_offset. rewrite CT, T, PI. reflexivity.
    + injection R as <- <-. apply acts_same; auto. intros _ w y (vr & S & ->) _. rewrite (EV _ S). unfold set_offset. rewrite CT, T, PI. reflexivity.
  - eapply cell_acts with (x' := MkLimits (l_limit x) None); eauto; [reflexivity|apply atoms_lim|].
    intros _ y (vr & S & ->). rewrite (EV _ S). unfold set_offset. rewrite CT, T. reflexivity.
Qed.
Lemma h_limit_spec : forall (G : addr -> Prop) q k p own h x r ro h' o, inv own h -> pd_at (limd q k p) own h x -> okr own h ro -> h_limit (RPtr p) r ro h = (h', o) ->
  acts (limd q k p) G (fun own => cell own q k) q own h x h' o (fun v y => exists vr vo, stands h r vr /\ stands h ro vo /\ avoids h q ro /\ y = set_limit v vr vo).
Proof.
  intros G q k p own h x r ro h' o J PA OK R. unfold h_limit in R. unfold hbind at 1, look at 1 in R. destruct (view h r) as [v|e] eqn:V.
  2: { injection R as <- <-. apply acts_same; auto. intros _ v y (vr & vo & S & _) _. apply view_cases in S. congruence. }
  assert (EV : forall vr, stands h r vr -> vr = v) by (intros vr S; apply view_cases in S; congruence).
  unfold hbind at 1, check at 1 in R. destruct (check_type [TNone; TInt] v) eqn:CT.
  2: { injection R as <- <-. apply acts_same; auto. intros _ w y (vr & vo & S & _ & _ & ->) _. rewrite (EV _ S). unfold set_limit. rewrite CT. reflexivity. }
  assert (NN : (v = VNone) \/ (v <> VNone)) by (destruct v; auto; right; discriminate).
  destruct NN as [->|NN].
  - unfold hbind at 1 in R. destruct (cell_change _ G q k CLimit p lim_refs own h x (MkLimits None (l_offset x)) (set_attr "_limit" r_none) J PA eq_refl (atoms_lim _)) as (h1 & E1 & A1 & P1).
    unfold assign in R at 1. rewrite E1 in R.
    destruct (cell_change _ G q k CLimit p lim_refs own h1 _ (MkLimits None None) (set_attr "_offset" r_none) (inv_after _ _ _ _ _ _ A1) P1 eq_refl (atoms_lim _)) as (h2 & E2 & A2 & P2).
    unfold assign in R. rewrite E2 in R. injection R as <- <-. exists own, (MkLimits None None). split; [eapply after_cells; eauto|]. split; [exact P2|].
    intros _ w y (vr & vo & S & _ & _ & ->) PV _. rewrite (EV _ S). cbn. auto.
  - assert (R' : (doh z <- look (fun _ => py_int v); doh _ <- assign (RPtr p) "_limit" (aint z); doh vo <- look (fun h => view h ro);
                  if is_none vo then hret tt else h_offset (RPtr p) ro) h = (h', o)) by (destruct v; try exact R; contradiction).
    clear R. assert (SL : forall w vo, set_limit w v vo = match py_int v with Err e => (w, Err e) | Ok z => let l' := MkLimits (Some z) (l_offset w) in if is_none vo then (l', Ok tt) else set_offset l' vo end).
    { intros w vo. unfold set_limit. rewrite CT. destruct v; try reflexivity. contradiction. }
    unfold hbind at 1, look at 1 in R'. destruct (py_int v) as [z|e] eqn:PI.
    2: { injection R' as <- <-. apply acts_same; auto. intros _ w y (vr & vo & S & _ & _ & ->) _. rewrite (EV _ S), SL. reflexivity. }
    destruct (cell_change _ G q k CLimit p lim_refs own h x (MkLimits (Some z) (l_offset x)) (set_attr "_limit" (aint z)) J PA eq_refl (atoms_lim _)) as (h1 & E1 & A1 & P1).
    unfold hbind at 1 in R'. unfold assign in R' at 1. rewrite E1 in R'. unfold hbind at 1, look at 1 in R'.
    assert (SO : (forall y, ~ G y) -> forall vo, stands h ro vo -> avoids h q ro -> stands h1 ro vo).
    { intros NG vo S AV. eapply kept_stands; [exact J|eapply quiet; eauto|exact OK|exact AV|exact S]. }
    destruct (view h1 ro) as [vo|e] eqn:VO.
    2: { injection R' as <- <-. exists own, (MkLimits (Some z) (l_offset x)). split; [exact A1|]. split; [exact P1|].
         intros NG w y (vr & vo & _ & S2 & AV & _) _ _. specialize (SO NG _ S2 AV). apply view_cases in SO. congruence. }
    assert (EO : (forall y, ~ G y) -> forall vo', stands h ro vo' -> avoids h q ro -> vo' = vo /\ stands h1 ro vo).
    { intros NG vo' S AV. specialize (SO NG _ S AV). pose proof (view_cases _ _ _ SO). split; congruence. }
    destruct (is_none vo) eqn:IN.
    + injection R' as <- <-. exists own, (MkLimits (Some z) (l_offset x)). split; [exact A1|]. split; [exact P1|].
      intros NG w y (vr & vo' & S & S2 & AV & ->) PV _. cbn in PV. subst w. rewrite (EV _ S), SL. destruct (EO NG _ S2 AV) as [-> _]. rewrite IN. cbn. auto.
    + destruct (h_offset_spec G q k p own h1 _ ro h' o (inv_after _ _ _ _ _ _ A1) P1 R') as (own2 & x2 & A2 & P2 & V2).
      exists own2, x2. split; [eapply after_cells; eauto|]. split; [exact P2|].
      intros NG w y (vr & vo' & S & S2 & AV & ->) PV _. cbn in PV. subst w. rewrite (EV _ S), SL. destruct (EO NG _ S2 AV) as [-> S3]. rewrite IN.
      apply (V2 NG (MkLimits (Some z) (l_offset x))); [|reflexivity|constructor]. exists vo. split; [exact S3|reflexivity].
Qed.

(** for update; REPLACE *)
Definition boold (q : addr) (k : string) (c : cls) (a : string) (p : addr) := celld q k c p (fun b : bool => [(LAttr a, abool b)]).
Lemma bool_spec : forall (G : addr -> Prop) q k c a p own h x b h' o (K : bool -> bool * outcome -> Prop), inv own h -> pd_at (boold q k c a p) own h x ->
  assign (RPtr p) a (abool b) h = (h', o) -> ((forall y, ~ G y) -> forall y, K x y -> y = (b, Ok tt)) ->
  acts (boold q k c a p) G (fun own => cell own q k) q own h x h' o K.
Proof.
  intros G q k c a p own h x b h' o K J PA R HK. eapply cell_acts with (x' := b); eauto; [|atomic].
  cbn. rewrite String.eqb_refl. reflexivity.
Qed.

(** Options *)
Definition kv_refs (l : list (string * string)) : list (label * ref) := flat_map (fun x => [(LKey, astr (fst x)); (LVal, astr (snd x))]) l.
Definition optsd {V} (q : addr) (k : string) (c : cls) (p : addr) (kvs : V -> list (string * string)) : partd V V :=
  MkPartd (fun own h x => exists d, get h p = Some (MkObj (OInst c) [(LAttr "_options", RPtr d)]) /\ own p = Some (q, (k, PPart)) /\
             get h d = Some (MkObj ODict (kv_refs (kvs x))) /\ own d = Some (q, (k, PDict))) (fun h x v => x = v) (fun _ => []).
Lemma atoms_kv : forall l, atoms (kv_refs l).
Proof. intros l a r I. apply in_flat_map in I. destruct I as (x & _ & [E|[E|[]]]); injection E as <- <-; eexists; reflexivity. Qed.
Lemma good_opts : forall V q k c p (kvs : V -> list (string * string)), good (optsd q k c p kvs) q (key k).
Proof.
  intros V q k c p kvs. split.
  - intros own h x own' h' K F (d & A & B & C & D). exists d. rewrite !(F _ (Some k) eq_refl) by (eexists; eauto).
    split; [exact A|]. split; [eapply keep_own; eauto|]. split; [exact C|eapply keep_own; eauto].
  - intros. constructor.
  - auto.
Qed.
Lemma option_spec : forall V (G : addr -> Prop) q k c p (kvs : V -> list (string * string)) own h x x' e h' o (K : V -> V * outcome -> Prop), inv own h -> pd_at (optsd q k c p kvs) own h x ->
  set_key (fst e) (astr (snd e)) (kv_refs (kvs x)) = kv_refs (kvs x') -> h_option (RPtr p) e h = (h', o) ->
  ((forall y, ~ G y) -> forall y, K x y -> y = (x', Ok tt)) ->
  acts (optsd q k c p kvs) G (fun own => cell own q k) q own h x h' o K.
Proof.
  intros V G q k c p kvs own h x x' e h' o K J (d & A & B & C & D) E R HK. unfold h_option in R. unfold hbind, look at 1 in R.
  replace (attr h "_options" (RPtr p)) with (Ok (RPtr d)) in R by (unfold attr, obj_at; rewrite A; reflexivity).
  unfold store, change in R. rewrite C, E in R. injection R as <- <-.
  assert (NE : p <> d) by (intros ->; rewrite A in C; discriminate).
  exists own, x'. split; [|split].
  - eapply after_write; [exact J|exact C|right; exists PDict; exact D|]. intros a r I. left. destruct (atoms_kv _ _ _ I) as [y ->]. exact Logic.I.
  - exists d. split; [rewrite get_put_other by exact NE; exact A|]. split; [exact B|]. split; [apply get_put_same; eapply get_lt; eauto|exact D].
  - intros NG v y KK PV _. cbn in PV. subst v. rewrite (HK NG y KK). cbn. auto.
Qed.
Definition onoff (b : bool) : string := if b then "on" else "off".
Definition ign_kvs (b : bool) : list (string * string) := [("ignore", onoff b)].
Definition cache_str (c : cacheopt) : string := match c with CacheOff => "off" | CacheOn => "cache" | CacheNo => "no_cache" end.
Definition dup_str (c : dupopt) : string := match c with DupOff => "off" | DupAll => "all" | DupDistinct => "distinct" | DupDistinctrow => "distinctrow" end.
Definition sel_kvs (o : selopts) : list (string * string) :=
  [("sql_cache", cache_str (so_cache o)); ("duplicated", dup_str (so_dup o)); ("sql_small_result", onoff (so_small o)); ("sql_big_result", onoff (so_big o));
   ("sql_buffer_result", onoff (so_buffer o)); ("sql_calc_found_rows", onoff (so_calc o)); ("straight_join", onoff (so_straight o)); ("high_priority", onoff (so_high o))].

(** Into outfile *)
Definition outr := outfield -> ref.
Definition out_refs (f : outr) : list (label * ref) :=
  [(LAttr "_into_outfile", f OFile); (LAttr "_fields_terminated_by", f OFields); (LAttr "_lines_terminated_by", f OLines); (LAttr "_optionally_enclosed_by", f OEncl)].
Definition opt_val (h : heap) (r : ref) (o : option val) : Prop := d_opt (view h) r = Ok o.
Definition outd (q : addr) (k : string) (p : addr) : partd outr (outfile val) :=
  MkPartd (fun own h f => get h p = Some (MkObj (OInst CIntoOutfile) (out_refs f)) /\ own p = Some (q, (k, PPart)) /\ forall g, okr own h (f g))
    (fun h f v => opt_val h (f OFile) (o_file v) /\ opt_val h (f OFields) (o_fields v) /\ opt_val h (f OLines) (o_lines v) /\ opt_val h (f OEncl) (o_encl v))
    (fun f => [f OFile; f OFields; f OLines; f OEncl]).
Lemma opt_frame : forall h h' r o, closed h -> valid h r -> (forall p, reach h r (RPtr p) -> get h' p = get h p) -> opt_val h r o -> opt_val h' r o.
Proof.
  intros h h' r o C V F H. unfold opt_val, d_opt in *. destruct (view h r) as [v|] eqn:E; [|discriminate]. rewrite (view_frame h h' r v C V F E). exact H.
Qed.
Lemma good_out : forall q k p, good (outd q k p) q (key k).
Proof.
  intros q k p. split.
  - intros own h x own' h' K F (A & B & C). split; [rewrite (F p (Some k) eq_refl); [exact A|exists PPart; exact B]|]. split; [eapply keep_own; eauto|].
    intros g. eapply okr_keeps; eauto.
  - intros own h x (A & B & C). cbn. auto.
  - intros own h h' x v _ C VA F (P1 & P2 & P3 & P4). cbn [outd pd_refs pd_val] in *.
    inversion VA as [|? ? V1 VA1]; subst. inversion VA1 as [|? ? V2 VA2]; subst. inversion VA2 as [|? ? V3 VA3]; subst. inversion VA3 as [|? ? V4 VA4]; subst.
    split; [|split; [|split]]; eapply opt_frame; eauto; intros ? ?; eapply F; eauto; cbn; auto.
Qed.
Definition outfield_eqb (a b : outfield) : bool := match a, b with OFile, OFile | OFields, OFields | OLines, OLines | OEncl, OEncl => true | _, _ => false end.
Lemma check_str : forall v, check_type [TStr] v = true -> v <> VNone.
Proof. intros v H ->. discriminate. Qed.
Lemma h_out_spec : forall (G : addr -> Prop) q k p own h x fl r h' o, inv own h -> pd_at (outd q k p) own h x -> okr own h r -> h_out (RPtr p) fl r h = (h', o) ->
  acts (outd q k p) G (fun own => cell own q k) q own h x h' o (fun v y => exists vr, stands h r vr /\ avoids h q r /\ y = set_out v fl vr).
Proof.
  intros G q k p own h x fl r h' o J PA OR R. unfold h_out in R. unfold hbind at 1, look at 1 in R. destruct (view h r) as [v|e] eqn:V.
  2: { injection R as <- <-. apply acts_same; auto. intros _ v y (vr & S & _) _. apply view_cases in S. congruence. }
  assert (EV : forall vr, stands h r vr -> vr = v) by (intros vr S; apply view_cases in S; congruence).
  unfold hbind at 1, check at 1 in R. destruct (check_type [TStr] v) eqn:CT.
  2: { injection R as <- <-. apply acts_same; auto. intros _ w y (vr & S & _ & ->) _. rewrite (EV _ S). unfold set_out. rewrite CT. reflexivity. }
  set (x' := fun g => if outfield_eqb g fl then r else x g).
  assert (PA0 := PA). destruct PA as (A & B & C). unfold assign, change in R. rewrite A in R.
  replace (set_attr (out_attr fl) r (out_refs x)) with (out_refs x') in R by (destruct fl; reflexivity). injection R as <- <-.
  set (h1 := put h p (MkObj (OInst CIntoOutfile) (out_refs x'))).
  assert (OK : forall g, okr own h (x' g)) by (intros g; unfold x'; destruct (outfield_eqb g fl); auto).
  assert (AF : after G (cell own q k) own h own h1).
  { eapply after_write; [exact J|exact A|right; exists PPart; exact B|]. intros a0 r0 I. left. cbn in I. repeat (destruct I as [I|I]; [injection I as <- <-; apply OK|]). contradiction. }
  exists own, x'. split; [exact AF|]. split.
  - split; [apply get_put_same; eapply get_lt; eauto|]. split; [exact B|]. intros g. eapply okr_keeps; [apply AF|apply OK].
  - intros NG w y (vr & S & AV & ->) (P1 & P2 & P3 & P4) AX. rewrite (EV _ S). unfold set_out. rewrite CT. cbn [negb fst snd].
    assert (AF' : after nothing (whole own q) own h own h1). { eapply after_more; [| |exact AF]; [intros z Z; exact (NG z Z)|apply whole_cell]. }
    assert (AX' : forall g, avoids h q (x g)). { cbn [outd pd_refs] in AX. inversion AX as [|? ? V1 VA1]; subst. inversion VA1 as [|? ? V2 VA2]; subst. inversion VA2 as [|? ? V3 VA3]; subst. inversion VA3 as [|? ? V4 VA4]; subst. intros []; assumption. }
    assert (KX : forall g ov, opt_val h (x g) ov -> opt_val h1 (x g) ov).
    { intros g ov. apply opt_frame; [apply J|eapply okr_valid; eauto|apply (kept_whole own q h own h1 (x g)); auto]. }
    assert (KR : opt_val h1 r (Some v)).
    { assert (X : opt_val h r (Some v)). { unfold opt_val, d_opt. rewrite V. cbn [bind]. destruct v; try reflexivity. exfalso. eapply check_str; eauto. }
      revert X. apply opt_frame; [apply J|eapply okr_valid; eauto|apply (kept_whole own q h own h1 r); auto]. }
    split; [|split; [reflexivity|]].
    + destruct fl; cbn [fst snd outd pd_val o_file o_fields o_lines o_encl x' outfield_eqb]; repeat split; auto.
    + assert (Y : forall g, avoids h1 q (x' g)). { intros g. unfold x'. destruct (outfield_eqb g fl); [apply (kept_whole own q h own h1 r)|apply (kept_whole own q h own h1 (x g))]; auto. }
      cbn. auto.
Qed.

(** ** Rows of insert: lists of their own *)
Lemma same_alike : forall h h' r, closed h -> valid h r -> (forall p, reach h r (RPtr p) -> get h' p = get h p) ->
  alike_by (fun x y => x = y /\ reach h r x) h h'.
Proof.
  intros h h' r C V F. split.
  - intros a r' [<- _]. reflexivity.
  - intros p r' [<- R]. pose proof (reach_valid _ _ _ C R V) as L. cbn in L. destruct (get h p) as [[k l]|] eqn:G.
    + exists p, k, l, l. split; [reflexivity|]. split; [reflexivity|]. split; [rewrite F by exact R; exact G|].
      assert (X : forall a x, In (a, x) l -> reach h r x). { intros a x I. eapply reach_trans; [exact R|]. eapply reach_step; [exists k, l, a; eauto|apply reach_refl]. }
      clear - X. induction l as [|[a x] l IH]; constructor; [cbn; split; [reflexivity|]; split; [reflexivity|]; eapply X; left; reflexivity|].
      apply IH. intros a' x' I. eapply X. right. exact I.
    + exfalso. unfold get in G. apply nth_error_None in G. lia.
  - intros p q p' q' [E _] [E' _] _ _. injection E as ->. injection E' as ->. tauto.
Qed.
Definition see_row (h : heap) (r : ref) : res (list val) := d_conds h (view h) CValues r.
Lemma see_frame : forall h h' c r x, closed h -> valid h r -> (forall p, reach h r (RPtr p) -> get h' p = get h p) ->
  d_conds h (view h) c r = Ok x -> d_conds h' (view h') c r = Ok x.
Proof.
  intros h h' c r x C V F H. unfold d_conds in *. pose proof (same_alike h h' r C V F) as AL.
  pose proof (al_parts _ _ _ AL c r r (Logic.conj eq_refl (reach_refl _ _))) as PP.
  destruct (parts h c r) as [l|] eqn:P; [|discriminate]. cbn [bind] in H.
  destruct (parts h' c r) as [l'|] eqn:P'; cbn in PP; [|contradiction]. cbn [bind].
  assert (R : Forall (reach h r) l). { clear - PP. induction PP as [|a b l l' [E R] PP IH]; constructor; auto. }
  assert (E : l' = l). { clear - PP. induction PP as [|a b l l' [E _] PP IH]; [reflexivity|]. congruence. } subst l'.
  apply mapM_forall2 in H. apply mapM_forall2. clear - H R C V F. induction H as [|a b l l' E H IH]; constructor.
  - inversion R; subst. eapply view_frame; [exact C|eapply reach_valid; eauto| |exact E]. intros p Rp. apply F. eapply reach_trans; eauto.
  - apply IH. inversion R; assumption.
Qed.
Lemma conflict_frame : forall h h' r x, closed h -> valid h r -> (forall p, reach h r (RPtr p) -> get h' p = get h p) ->
  d_conflict h r = Ok x -> d_conflict h' r = Ok x.
Proof.
  intros h h' r x C V F H. pose proof (al_conflict _ _ _ (same_alike h h' r C V F) r r (Logic.conj eq_refl (reach_refl _ _))) as P.
  rewrite H in P. destruct (d_conflict h' r); cbn in P; [congruence|contradiction].
Qed.

Lemma reach_parts : forall h c sep p l items x, parts_at h c sep [] p l items -> reach h (RPtr p) (RPtr x) -> x = p \/ x = l \/ exists i, In i items /\ reach h i (RPtr x).
Proof.
  intros h c sep p l items x [A B] R. inversion R as [|? r ? Hr R1]; subst; [auto|]. right.
  destruct Hr as (k & ll & a & G & I). rewrite A in G. injection G as <- <-. destruct I as [I|[]]. injection I as <- <-.
  inversion R1 as [|? r ? Hr R2]; subst; [auto|]. right. destruct Hr as (k & ll & b & G & I). rewrite B in G. injection G as <- <-.
  destruct I as [I|I]; [injection I as <- <-; apply reach_atom in R2; discriminate|]. apply in_map_iff in I. destruct I as (i & E & I). injection E as <- <-. eauto.
Qed.
Lemma new_parts_spec : forall (G C : addr -> Prop) own h c sep, inv own h -> exists h' : heap, HeapBuild.new_parts c sep [] h = (h', Ok (S (List.length h))) /\
  after G C own h own h' /\ parts_at h' c sep [] (S (List.length h)) (List.length h) [] /\ List.length h' = S (S (List.length h)) /\
  (forall p, p < List.length h -> get h' p = get h p).
Proof.
  intros G C own h c sep J. unfold new_parts, alloc, hbind. rewrite app_len. replace (List.length h + 1) with (S (List.length h)) by lia.
  eexists. split; [reflexivity|].
  set (o1 := MkObj (OInst CListOfQueryParts) [(LAttr "_separator", astr sep)]). set (h1 := h ++ [o1]).
  assert (L1 : List.length h1 = S (List.length h)) by (unfold h1; rewrite app_len; lia).
  destruct (after_alloc G C own h (OInst CListOfQueryParts) [(LAttr "_separator", astr sep)] J) as [A1 O1]; [intros a r [E|[]]; injection E as <- <-; exact Logic.I|].
  fold o1 in A1, O1. fold h1 in A1, O1.
  destruct (after_alloc G C own h1 (OInst c) [(LAttr "_parts", RPtr (List.length h))] (inv_after _ _ _ _ _ _ A1)) as [A2 O2]; [intros a r [E|[]]; injection E as <- <-; exact O1|].
  split; [eapply after_trans; eauto|]. split; [|split].
  - split; [rewrite <- L1; apply get_new|]. rewrite get_old by lia. apply get_new.
  - rewrite app_len. lia.
  - intros p L. rewrite get_old by lia. apply get_old. exact L.
Qed.
Definition rowsd (q : addr) (k : string) (p : addr) := condsd see_row q k CMultipleValues ", " [] p.
Lemma h_add_row_spec : forall W (G : addr -> Prop) q k cq p own h x args kwds h' o, inv own h -> kind_of h q = Some (OInst cq) -> usable own h G ->
  pd_at (rowsd q k p) own h x -> kokr own h args kwds -> kgin G h args kwds -> h_add_row W (RPtr p) args kwds h = (h', o) ->
  acts (rowsd q k p) G (fun own => cell own q k) q own h x h' o (fun v y => exists vs vk, Forall2 (stands h) args vs /\ Forall2 (kw_stands h) kwds vk /\
    kavoids h q args kwds /\ y = rows_add W v vs vk).
Proof.
  intros W G q k cq p own h x args kwds h' o J KQ U (l & (P & OP & OL) & OI) [OA OK] [GA GK] R. unfold h_add_row in R.
  destruct (new_parts_spec G nothing own h CValues ", " J) as (h1 & E1 & A1 & P1 & L1 & F1). unfold hbind at 1 in R. rewrite E1 in R.
  set (p1 := S (List.length h)) in *. set (l1 := List.length h) in *. pose proof (inv_after _ _ _ _ _ _ A1) as J1.
  assert (FR : forall r, valid h r -> forall y, reach h r (RPtr y) -> get h1 y = get h y).
  { intros r V y Y. apply F1. exact (reach_valid _ _ _ (in_closed _ _ J) Y V). }
  assert (RB : forall r y, valid h r -> reach h1 r y -> reach h r y) by (intros r y V; apply reach_frame; apply FR; exact V).
  assert (VA : Forall (valid h) args) by (eapply Forall_impl; [|exact OA]; intros; eapply okr_valid; eauto).
  assert (VK : Forall (fun z => valid h (snd z)) kwds) by (eapply Forall_impl; [|exact OK]; intros ? X; exact (okr_valid _ _ _ X)).
  assert (KO1 : kokr own h1 args kwds). { split; [eapply oks_keeps; [apply A1|exact OA]|]. eapply Forall_impl; [|exact OK]. intros z. apply okr_keeps. apply A1. }
  assert (GI : forall r, valid h r -> gin G h r -> gin G h1 r).
  { intros r V GG y Y KY. pose proof (RB _ _ V Y) as Y'. apply GG; [exact Y'|]. unfold kind_of in *. rewrite FR with (r := r) in KY; auto. }
  assert (KG1 : kgin G h1 args kwds). { split; rewrite Forall_forall in *; intros z I; apply GI; auto. }
  destruct (h_set W (RPtr p1) args kwds h1) as [h2 o2] eqn:E2.
  assert (HL : l1 < List.length h1 /\ p1 < List.length h1) by (rewrite L1; unfold p1, l1; lia).
  destruct (h_set_spec W G own CValues ", " [] p1 l1 h1 [] args kwds h2 o2) as (add & A2 & P2 & O2 & V2); auto.
  { apply (usable_new own h G p1 U). unfold p1. lia. } { apply (usable_new own h G l1 U). unfold l1. lia. }
  cbn [app] in P2, O2, V2. pose proof (inv_after _ _ _ _ _ _ A2) as J2.
  assert (A12 : after G (cell own q k) own h own h2).
  { split; [eapply keeps_trans; [apply A1|apply A2]|]. split; [exact J2|]. intros y LY. destruct A2 as (_ & _ & F2). destruct (F2 y) as [E|[X|X]]; [rewrite L1; unfold l1 in LY; lia| | |].
    - left. rewrite E. apply F1. exact LY.
    - right. left. exact X.
    - exfalso. subst y. unfold l1 in LY. lia. }
  assert (PA2 : exists l, qparts own q h2 k CMultipleValues ", " [] p l x /\ Forall (okr own h2) x).
  { exists l. split; [|eapply oks_keeps; [apply A12|exact OI]]. assert (LP : p < List.length h /\ l < List.length h) by (split; eapply owned_lt; eauto). destruct LP as [LP LL].
    assert (NE : get h2 p = get h p /\ get h2 l = get h l).
    { destruct A2 as (_ & _ & F2). split.
      - destruct (F2 p) as [E|[X|X]]; [rewrite L1; unfold l1; lia|rewrite E; apply F1; exact LP|exfalso; exact (usable_own _ _ _ _ _ U OP X)|exfalso; unfold l1 in X; lia].
      - destruct (F2 l) as [E|[X|X]]; [rewrite L1; unfold l1; lia|rewrite E; apply F1; exact LL|exfalso; exact (usable_own _ _ _ _ _ U OL X)|exfalso; unfold l1 in X; lia]. }
    split; [eapply parts_at_frame; [exact P| |]; apply NE|auto]. }
  assert (VS : (forall y, ~ G y) -> forall vs vk, Forall2 (stands h) args vs -> Forall2 (kw_stands h) kwds vk -> kavoids h q args kwds ->
     Forall2 (fun r y => view h2 r = Ok y) add (fst (values_set W [] vs vk)) /\ snd (values_set W [] vs vk) = o2 /\ Forall (avoids h2 q) add).
  { intros NG vs vk SV SK [AVA AVK].
    assert (CALM : forall r, okr own h r -> avoids h q r -> calm nothing (fun y => whole own q y \/ y = l1) h1 r).
    { intros r Or Av y Y. apply RB in Y; [|eapply okr_valid; eauto]. split; [intros []|]. intros [X| ->].
      - exact (proj2 (avoids_calm _ _ _ _ J Or Av y Y) X).
      - apply (reach_valid _ _ _ (in_closed _ _ J)) in Y; [|eapply okr_valid; eauto]. cbn in Y. unfold l1 in Y. lia. }
    destruct (V2 NG (fun y => whole own q y \/ y = l1) [] (values_set W [] vs vk)) as (R1 & R2 & R3).
    - right. reflexivity.
    - intros y LY [X| ->]; [|lia]. revert X. eapply whole_fresh; [exact J| |]; [exact KQ|]. unfold l1 in *. lia.
    - exists vs, vk. split; [|split; [|split; [|reflexivity]]].
      + clear - SV VA FR J. induction SV; constructor; [|inversion VA; auto]. inversion VA; subst. eapply frame_stands; [apply J|eassumption| |eassumption]. apply FR. assumption.
      + clear - SK VK FR J. induction SK as [|a b kw vk0 [Ea Eb] SK IH]; constructor; [|inversion VK; auto]. inversion VK; subst. split; [exact Ea|]. eapply frame_stands; [apply J|eassumption| |eassumption]. apply FR. assumption.
      + split.
        * clear - CALM OA AVA. induction OA; constructor; inversion AVA; subst; auto.
        * clear - CALM OK AVK. induction OK; constructor; inversion AVK; subst; auto.
    - constructor.
    - constructor.
    - split; [exact R1|]. split; [exact R2|]. eapply Forall_impl; [|exact R3]. intros r CR Y. destruct (CR _ Y) as [_ X]. apply X. left. left. reflexivity. }
  destruct o2 as [u|e]; unfold hbind in R; rewrite E2 in R.
  2: { injection R as <- <-. exists own, x. split; [exact A12|]. split; [exact PA2|]. intros NG v y (vs & vk & SV & SK & AV & ->) PV AX.
       destruct (VS NG vs vk SV SK AV) as (_ & X & _). unfold rows_add. destruct (values_set W [] vs vk) as [ps o2]. cbn [snd] in X. subst o2. cbn [fst snd].
       pose proof (good_conds _ see_row q k CMultipleValues ", " [] p (fun h h' r => see_frame h h' CValues r)) as GC.
       assert (AW : after nothing (whole own q) own h own h2). { eapply after_more; [| |exact A12]; [intros z Z; exact (NG z Z)|apply whole_cell]. }
       rewrite Forall_forall in AX. pose proof OI as OI'. rewrite Forall_forall in OI'. split; [|split; [reflexivity|]].
       - eapply (g_val _ _ _ GC own h); [exists l; split; [split|]; eauto|apply J|eapply Forall_impl; [|exact OI]; intros; eapply okr_valid; eauto| |exact PV].
         intros r z I. apply (kept_whole own q h own h2 r); auto.
       - apply Forall_forall. intros r I. apply (kept_whole own q h own h2 r); auto. }
  destruct PA2 as (l2 & (PP & OP2 & OL2) & OX2).
  assert (OP1 : okr own h2 (RPtr p1)). { split; [destruct A2 as ((LL & _) & _); lia|]. apply (fresh_own own h); [exact J|]. unfold p1. lia. }
  destruct (append_part_at G own h2 CMultipleValues ", " [] p l2 x (RPtr p1) J2 PP OX2 OP1) as (h3 & E3 & A3 & P3). rewrite E3 in R. injection R as <- <-.
  assert (A3' : after G (cell own q k) own h2 own h3). { eapply after_more; [| |exact A3]; [auto|]. intros y <-. exists PList. exact OL2. }
  exists own, (x ++ [RPtr p1]). split; [eapply after_cells; eauto|]. split.
  - exists l2. split; [split; auto|]. apply Forall_app. split; [eapply oks_keeps; [apply A3|exact OX2]|]. constructor; [|constructor]. eapply okr_keeps; [apply A3|exact OP1].
  - intros NG v y (vs & vk & SV & SK & AV & ->) PV AX. destruct (VS NG vs vk SV SK AV) as (X1 & X2 & X3). unfold rows_add. destruct (values_set W [] vs vk) as [ps o2].
    cbn [fst snd] in X1, X2. subst o2. destruct u. cbn [fst snd].
    pose proof (good_conds _ see_row q k CMultipleValues ", " [] p (fun h h' r => see_frame h h' CValues r)) as GC.
    assert (AW : after nothing (whole own q) own h own h3). { eapply after_more; [| |eapply after_cells; [exact A12|exact A3']]; [intros z Z; exact (NG z Z)|apply whole_cell]. }
    assert (AW3 : after nothing (whole own q) own h2 own h3). { eapply after_more; [| |exact A3']; [intros z Z; exact (NG z Z)|apply whole_cell]. }
    assert (RQ : avoids h2 q (RPtr p1)).
    { intros Y. apply (reach_parts _ _ _ _ _ _ _ P2) in Y. apply q_lt in KQ. destruct Y as [Y|[Y|(i & I & Y)]]; [unfold p1 in Y; lia|unfold l1 in Y; lia|].
      rewrite Forall_forall in X3. exact (X3 i I Y). }
    rewrite Forall_forall in AX. pose proof OI as OI'. rewrite Forall_forall in OI'. split; [|split; [reflexivity|]].
    + cbn [rowsd condsd pd_val]. apply Forall2_app.
      * eapply (g_val _ _ _ GC own h); [exists l; split; [split|]; eauto|apply J|eapply Forall_impl; [|exact OI]; intros; eapply okr_valid; eauto| |exact PV].
        intros r z I. apply (kept_whole own q h own h3 r); auto.
      * constructor; [|constructor]. apply see_frame with (h := h2); [apply J2|apply OP1|apply (kept_whole own q h2 own h3 (RPtr p1)); auto|].
        unfold see_row, d_conds. rewrite (parts_at_parts _ _ _ _ _ _ _ P2). cbn [bind]. apply mapM_forall2. exact X1.
    + cbn [rowsd condsd pd_refs]. apply Forall_app. split; [apply Forall_forall; intros r I; apply (kept_whole own q h own h3 r); auto|].
      constructor; [|constructor]. apply (kept_whole own q h2 own h3 (RPtr p1)); auto.
Qed.
