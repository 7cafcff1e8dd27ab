(** Lemmas: methods that change one part of a query; group_by and order_by. *)
From Coq Require Import Lia.
From Verif Require Import Base NumFmt Value Backend Eq Render ParseArgs Build Heap SpecHeap PfHeap PfHeapAlike PfHeapFrame PfHeapView HeapBuild SpecShare PfShare PfOwn PfParts PfNewItems PfMethods PfLayout.
Open Scope nat_scope.
Local Arguments view : simpl never.

(** A part of a query: where its objects are, what they stand for, what they refer to. *)
Record partd (L V : Type) := MkPartd {
  pd_at : owner -> heap -> L -> Prop;
  pd_val : heap -> L -> V -> Prop;
  pd_refs : L -> list ref }.
Arguments MkPartd {L V}. Arguments pd_at {L V}. Arguments pd_val {L V}. Arguments pd_refs {L V}.
(** What a method does to a part, and, if it uses up nothing, to what the part stands for. *)
Definition acts {L V} (P : partd L V) (G : addr -> Prop) (C : owner -> addr -> Prop) (q : addr) own h (x : L) h' (o : res unit) (K : V -> V * outcome -> Prop) : Prop :=
  exists own' x', after G (C own) own h own' h' /\ pd_at P own' h' x' /\
    ((forall y, ~ G y) -> forall v y, K v y -> pd_val P h x v -> Forall (avoids h q) (pd_refs P x) ->
       pd_val P h' x' (fst y) /\ snd y = o /\ Forall (avoids h' q) (pd_refs P x')).
Section Acts.
  Context {L V : Type} (P : partd L V) (q : addr) (k : string).
  Let C (own : owner) := cell own q k.
  Lemma acts_same : forall G C own h x o (K : V -> V * outcome -> Prop), inv own h -> pd_at P own h x ->
    ((forall y, ~ G y) -> forall v y, K v y -> pd_val P h x v -> y = (v, o)) -> acts P G C q own h x h o K.
  Proof.
    intros G C0 own h x o K J A H. exists own, x. split; [apply after_refl; exact J|]. split; [exact A|].
    intros NG v y KK PV AV. rewrite (H NG v y KK PV). auto.
  Qed.
  Lemma acts_more : forall G C own h x h' o (K K' : V -> V * outcome -> Prop), acts P G C q own h x h' o K ->
    ((forall y, ~ G y) -> forall v y, K' v y -> pd_val P h x v -> K v y) -> acts P G C q own h x h' o K'.
  Proof.
    intros G C0 own h x h' o K K' (own' & x' & A & B & D) H. exists own', x'. split; [exact A|]. split; [exact B|].
    intros NG v y KK PV AV. apply D with (v := v); auto.
  Qed.
  Lemma quiet : forall G own h own' h', (forall y, ~ G y) -> after G (cell own q k) own h own' h' -> after nothing (cell own q k) own h own' h'.
  Proof. intros G own h own' h' NG A. eapply after_more; [| |exact A]; [intros y Y; exact (NG y Y)|auto]. Qed.
  Lemma acts_loop : forall G c (body : list ref -> hm unit) (f : V -> list val -> V * outcome),
    (forall own h x it h' o, inv own h -> own q = None -> kind_of h q = Some (OInst c) -> pd_at P own h x -> Forall (okr own h) it ->
       body it h = (h', o) ->
       acts P G C q own h x h' o (fun v y => exists vit, Forall2 (stands h) it vit /\ Forall (avoids h q) it /\ y = f v vit)) ->
    forall its own h x h' o, inv own h -> own q = None -> kind_of h q = Some (OInst c) -> pd_at P own h x -> Forall (Forall (okr own h)) its ->
      for_each body its h = (h', o) ->
      acts P G C q own h x h' o (fun v y => exists vits, Forall2 (Forall2 (stands h)) its vits /\ Forall (Forall (avoids h q)) its /\ y = foldE f v vits).
  Proof.
    intros G c body f TURN its. induction its as [|it its IH]; intros own h x h' o J NQ KQ A OT R.
    - cbn in R. injection R as <- <-. apply acts_same; auto. intros _ v y (vits & S & _ & ->) _. inversion S; subst. reflexivity.
    - inversion OT as [|? ? OT1 OT2]; subst. cbn [for_each] in R. unfold hbind in R at 1. destruct (body it h) as [h1 r1] eqn:B.
      destruct (TURN _ _ _ _ _ _ J NQ KQ A OT1 B) as (own1 & x1 & A1 & P1 & V1).
      pose proof (keeps_after _ _ _ _ _ _ A1) as K1. destruct r1 as [[]|e].
      + destruct (IH own1 h1 x1 h' o (inv_after _ _ _ _ _ _ A1)) as (own2 & x2 & A2 & P2 & V2); auto.
        { destruct K1 as (_ & OO & _). rewrite OO; [exact NQ|]. unfold kind_of in KQ. destruct (get h q) eqn:GQ; [|discriminate]. eapply get_lt; eauto. }
        { apply K1. exact KQ. }
        { eapply Forall_impl; [|exact OT2]. intros; eapply oks_keeps; eauto. }
        exists own2, x2. split; [eapply after_cells; eauto|]. split; [exact P2|].
        intros NG v y (vits & SV & AV & ->) PV AX. inversion SV as [|? vit ? vits' SV1 SV2]; subst. inversion AV as [|? ? AV1 AV2]; subst.
        destruct (V1 NG v (f v vit)) as (PV1 & E1 & AX1); eauto.
        cbn [foldE]. destruct (f v vit) as [v1 o1]. cbn [fst snd] in *. subst o1.
        pose proof (quiet _ _ _ _ _ NG A1) as A1'.
        apply (V2 NG v1); auto. exists vits'. split; [|split; [|reflexivity]].
        * clear - SV2 AV2 OT2 A1' J. induction SV2 as [|a b its vits H S IH]; constructor; inversion AV2 as [|? ? A1 A2]; inversion OT2 as [|? ? O1 O2]; subst; auto.
          clear - H A1 O1 A1' J. induction H; constructor; inversion A1; inversion O1; subst; auto. eapply kept_stands; eauto.
        * clear - AV2 OT2 A1' J. induction AV2 as [|a its H S IH]; constructor; inversion OT2 as [|? ? O1 O2]; subst; auto.
          clear - H O1 A1' J. induction H; constructor; inversion O1; subst; auto. eapply kept_avoids; eauto.
      + injection R as <- <-. exists own1, x1. split; [exact A1|]. split; [exact P1|].
        intros NG v y (vits & SV & AV & ->) PV AX. inversion SV as [|? vit ? vits' SV1 SV2]; subst. inversion AV as [|? ? AV1 AV2]; subst.
        destruct (V1 NG v (f v vit)) as (PV1 & E1 & AX1); eauto.
        cbn [foldE]. destruct (f v vit) as [v1 o1]. cbn [fst snd] in *. subst o1. auto.
  Qed.
End Acts.

(** ** group_by, order_by *)
Definition ordersd (q : addr) (k : string) (c : cls) (p : addr) : partd (list (ref * sortd)) (list (val * sortd)) :=
  MkPartd (fun own h os => orders_part own q h k c p os) (fun h os vs => Forall2 (ord_val h) os vs) (map fst).
Lemma order_column : forall h a c s, get h a = Some (ord_obj c s) -> attr h "_column_name" (RPtr a) = Ok c.
Proof. intros h a c s G. unfold attr, obj_at. rewrite G. reflexivity. Qed.
Lemma find_loc : forall W own q h k vc items i os r, ats (ord_at own q h k) i items os -> find_order W h vc items = Ok (Some r) ->
  exists i1 i2 o1 c s o2, items = i1 ++ r :: i2 /\ os = o1 ++ (c, s) :: o2 /\ List.length i1 = List.length o1 /\
    forall vos, Forall2 (ord_val h) os vos -> exists v1 cv v2, Forall2 (ord_val h) o1 v1 /\ stands h c cv /\ Forall2 (ord_val h) o2 v2 /\
      forall vs, order_update W vos vc vs = (do s' <- mk_sort (w_env W) vs; Ok (Some (v1 ++ (cv, s') :: v2))).
Proof.
  intros W own q h k vc items. induction items as [|r0 items IH]; intros i [|[c s] os] r A F; cbn in A; try contradiction; [discriminate|].
  destruct A as [(a & -> & O & G & OC) A]. cbn [find_order] in F. rewrite (order_column _ _ _ _ G) in F. cbn [bind fst] in F.
  destruct (view h c) as [v|] eqn:V; [|discriminate]. cbn [bind] in F. destruct (w_eq W v vc) as [[|]|] eqn:E; try discriminate; cbn [bind] in F.
  - injection F as <-. exists [], items, [], c, s, os. split; [reflexivity|]. split; [reflexivity|]. split; [reflexivity|].
    intros vos SV. inversion SV as [|? [cv s'] ? vos' [S1 S2] SV']; subst. cbn in S1, S2. subst s'.
    pose proof (view_cases _ _ _ S1) as E1. rewrite V in E1. injection E1 as <-. exists [], v, vos'.
    split; [constructor|]. split; [exact S1|]. split; [exact SV'|]. intros vs. cbn [order_update]. rewrite E. reflexivity.
  - destruct (IH _ _ _ A F) as (i1 & i2 & o1 & c1 & s1 & o2 & -> & -> & LL & H).
    exists (RPtr a :: i1), i2, ((c, s) :: o1), c1, s1, o2. split; [reflexivity|]. split; [reflexivity|]. split; [cbn; congruence|].
    intros vos SV. inversion SV as [|? [cv s'] ? vos' [S1 S2] SV']; subst. cbn in S1, S2. subst s'.
    pose proof (view_cases _ _ _ S1) as E1. rewrite V in E1. injection E1 as <-.
    destruct (H _ SV') as (v1 & cv1 & v2 & Q1 & Q2 & Q3 & Q4). exists ((v, s) :: v1), cv1, v2.
    split; [constructor; [split; [exact S1|reflexivity]|exact Q1]|]. split; [exact Q2|]. split; [exact Q3|].
    intros vs. cbn [order_update]. rewrite E, Q4. destruct (mk_sort _ vs); reflexivity.
Qed.
Lemma find_not : forall W own q h k vc items i os, ats (ord_at own q h k) i items os ->
  match find_order W h vc items with
  | Ok (Some _) => True
  | Ok None => forall vos, Forall2 (ord_val h) os vos -> forall vs, order_update W vos vc vs = Ok None
  | Err e => forall vos, Forall2 (ord_val h) os vos -> forall vs, order_update W vos vc vs = Err e
  end.
Proof.
  intros W own q h k vc items. induction items as [|r0 items IH]; intros i [|[c s] os] A; cbn in A; try contradiction.
  { cbn. intros vos SV. inversion SV. reflexivity. }
  destruct A as [(a & -> & O & G & OC) A]. cbn [find_order]. rewrite (order_column _ _ _ _ G). cbn [bind fst].
  assert (X : forall vos, Forall2 (ord_val h) ((c, s) :: os) vos -> exists v vos', vos = (v, s) :: vos' /\ view h c = Ok v /\ Forall2 (ord_val h) os vos').
  { intros vos SV. inversion SV as [|? [cv s'] ? vos' [S1 S2] SV']; subst. cbn in S1, S2. subst s'. exists cv, vos'. split; [reflexivity|]. split; [|exact SV'].
    apply view_cases. exact S1. }
  destruct (view h c) as [v|e] eqn:V; cbn [bind].
  2: { intros vos SV. destruct (X _ SV) as (v & vos' & _ & E & _). discriminate. }
  destruct (w_eq W v vc) as [[|]|e] eqn:E; cbn [bind]; auto.
  - specialize (IH _ _ A). destruct (find_order W h vc items) as [[r|]|e]; auto; intros vos SV vs; destruct (X _ SV) as (v' & vos' & -> & E1 & SV'); injection E1 as <-;
      cbn [order_update]; rewrite E, (IH _ SV' vs); reflexivity.
  - intros vos SV vs. destruct (X _ SV) as (v' & vos' & -> & E1 & SV'). injection E1 as <-. cbn [order_update]. rewrite E. reflexivity.
Qed.
Lemma kept_orders : forall own q k h own' h' os vos, inv own h -> after nothing (cell own q k) own h own' h' -> Forall (fun x => okr own h (fst x)) os ->
  Forall (avoids h q) (map fst os) -> Forall2 (ord_val h) os vos -> Forall2 (ord_val h') os vos /\ Forall (avoids h' q) (map fst os).
Proof.
  intros own q k h own' h' os vos J A O AV S. induction S as [|x y os vos [S1 S2] S IH]; [split; constructor|].
  inversion O; inversion AV; subst. destruct IH as [I1 I2]; auto. split; constructor; auto.
  - split; [eapply kept_stands; eauto|exact S2].
  - eapply kept_avoids; eauto.
Qed.
Lemma ats_okf : forall own q h k items i os, ats (ord_at own q h k) i items os -> Forall (fun x => okr own h (fst x)) os.
Proof.
  intros own q h k items. induction items as [|r items IH]; intros i [|x os] A; cbn in A; try contradiction; constructor; destruct A as [A B]; eauto.
  destruct A as (a & _ & _ & _ & O). exact O.
Qed.
(** The list of a part refers to the objects in it. *)
Lemma ats_mine : forall X (P : nat -> ref -> X -> Prop) own h q items i xs, (forall j r x, P j r x -> mine own h q r) -> ats P i items xs ->
  forall r, In r items -> mine own h q r.
Proof.
  intros X P own h q items. induction items as [|r items IH]; intros i [|x xs] H A r0 I; cbn in A; try contradiction. destruct A as [A B]. destruct I as [<-|I]; eauto.
Qed.
Lemma ord_mine : forall own q h k j r x, ord_at own q h k j r x -> mine own h q r.
Proof. intros own q h k j r x (a & -> & O & G & _). cbn. split; [eapply get_lt; eauto|]. rewrite O. reflexivity. Qed.
(** append_part of an object of the query. *)
Lemma append_mine : forall G own h q k c sep more p l items x, inv own h -> qparts own q h k c sep more p l items ->
  (forall r, In r items -> mine own h q r) -> mine own h q x ->
  exists h', append_part (RPtr p) x h = (h', Ok tt) /\ after G (cell own q k) own h own h' /\ qparts own q h' k c sep more p l (items ++ [x]) /\
    (forall a, a <> l -> get h' a = get h a).
Proof.
  intros G own h q k c sep more p l items x J (P & OP & OL) OI OX. pose proof (parts_at_ne _ _ _ _ _ _ _ P) as NE. destruct P as [A B].
  unfold append_part, hbind, look, attr, obj_at. rewrite A. cbn. rewrite B.
  eexists. split; [reflexivity|]. split; [|split].
  - eapply after_write; [exact J|exact B|right; exists PList; exact OL|].
    intros a r [E|I]; [injection E as <- <-; left; exact Logic.I|]. right. exists q. split; [|right; eauto].
    apply in_app_or in I. destruct I as [I|[E|[]]]; [|injection E as <- <-; exact OX].
    apply in_map_iff in I. destruct I as (y & E & I). injection E as <- <-. apply OI. exact I.
  - split; [|auto]. split; [rewrite get_put_other by exact NE; exact A|].
    rewrite get_put_same by (eapply get_lt; eauto). rewrite map_app. reflexivity.
  - intros a N. apply get_put_other. exact N.
Qed.
(** One item. *)
Definition order_item (W : world) (st : list (val * sortd)) (it : list val) : list (val * sortd) * outcome :=
  let (c, sort) := nth2 it in
  commit st (do o <- order_update W st c sort;
             match o with
             | Some st' => Ok st'
             | None => if negb (check_type [TStr; TInt] c) then Err EInvalidArgument
                       else do s <- mk_sort (w_env W) sort; Ok (st ++ [(c, s)])
             end).
Lemma h_order1_spec : forall W G q k cq c p own h os it h' o, inv own h -> own q = None -> kind_of h q = Some (OInst cq) ->
  pd_at (ordersd q k c p) own h os -> Forall (okr own h) it -> h_order1 W (RPtr p) it h = (h', o) ->
  acts (ordersd q k c p) G (fun own => cell own q k) q own h os h' o
    (fun v y => exists vit, Forall2 (stands h) it vit /\ Forall (avoids h q) it /\ y = order_item W v vit).
Proof.
  intros W G q k cq c p own h os it h' o J NQ KQ (l & items & Q & A) OT R.
  assert (PT : pd_at (ordersd q k c p) own h os) by (exists l, items; auto).
  unfold h_order1 in R. pose proof (nth2_all (okr own h) it Logic.I OT) as [OC OS].
  pose proof (nth2_stands h it) as NS. pose proof (nth2_all (avoids h q) it) as NA.
  unfold order_item. destruct (r_nth2 it) as [cr sr]. cbn [fst snd] in *.
  unfold hbind at 1, look at 1 in R. destruct (view h cr) as [vc|e] eqn:VC.
  2: { injection R as <- <-. apply acts_same; auto. intros _ v y (vit & S & _) _. destruct (NS _ S) as [S1 _]. apply view_cases in S1. congruence. }
  unfold hbind at 1, look at 1 in R. destruct (view h sr) as [vs|e] eqn:VS.
  2: { injection R as <- <-. apply acts_same; auto. intros _ v y (vit & S & _) _. destruct (NS _ S) as [_ S1]. apply view_cases in S1. congruence. }
  assert (EV : forall vit, Forall2 (stands h) it vit -> nth2 vit = (vc, vs)).
  { intros vit S. destruct (NS _ S) as [S1 S2]. apply view_cases in S1, S2. destruct (nth2 vit). cbn in *. congruence. }
  unfold hbind at 1, look at 1 in R. rewrite (parts_at_of _ _ _ _ _ _ _ (proj1 Q)) in R. cbn [bind] in R.
  pose proof (find_not W own q h k vc items 0 os A) as FN.
  destruct (find_order W h vc items) as [[r|]|e] eqn:F.
  - (* the column is there *)
    destruct (find_loc W own q h k vc items 0 os r A F) as (i1 & i2 & o1 & c1 & s1 & o2 & -> & -> & LL & HV).
    unfold hbind at 1, look at 1 in R. destruct (mk_sort (w_env W) vs) as [s'|e] eqn:MS.
    2: { injection R as <- <-. apply acts_same; auto. intros _ v y (vit & S & _ & ->) PV. rewrite (EV _ S).
         destruct (HV _ PV) as (v1 & cv & v2 & _ & _ & _ & E). rewrite E, MS. reflexivity. }
    apply ats_app in A; [|exact LL]. destruct A as [A1 [(a & -> & OA & GA & OK) A2]]. cbn [fst snd] in GA.
    unfold assign, change in R. rewrite GA in R. injection R as <- <-.
    set (h1 := put h a (MkObj (OInst COrder) (set_attr "_sort" (sort_ref s') (o_refs (ord_obj c1 s1))))).
    assert (G1 : get h1 a = Some (ord_obj c1 s')) by (unfold h1; rewrite get_put_same by (eapply get_lt; eauto); reflexivity).
    assert (GO : forall x, x <> a -> get h1 x = get h x) by (intros; apply get_put_other; assumption).
    assert (AF : after G (cell own q k) own h own h1).
    { eapply after_write; [exact J|exact GA|right; eexists; exact OA|]. cbn. intros a0 r0 [E|[E|[]]]; injection E as <- <-; left; [exact OK|exact Logic.I]. }
    pose proof (keeps_after _ _ _ _ _ _ AF) as KP.
    exists own, (o1 ++ (c1, s') :: o2). split; [exact AF|]. split.
    + exists l, (i1 ++ RPtr a :: i2). split.
      * eapply qparts_frame; [exact KP| |exact Q]. intros b s HS OB. apply GO. intros ->. rewrite OA in OB. injection OB as <-. discriminate.
      * apply ats_app; [exact LL|]. split.
        -- eapply ats_impl; [|exact A1]. intros j r x _ LJ. apply ord_frame; [exact KP|]. intros b s HS OB. apply GO. intros ->. rewrite OA in OB. injection OB as <-. cbn in HS. injection HS as HS. lia.
        -- split.
           ++ exists a. split; [reflexivity|]. split; [exact OA|]. split; [exact G1|]. eapply okr_keeps; eauto.
           ++ eapply ats_impl; [|exact A2]. intros j r x LJ _. apply ord_frame; [exact KP|]. intros b s HS OB. apply GO. intros ->. rewrite OA in OB. injection OB as <-. cbn in HS. injection HS as HS. lia.
    + intros NG v y (vit & S & AT & ->) PV AX. rewrite (EV _ S). destruct (HV _ PV) as (v1 & cv & v2 & S1 & S2 & S3 & E). rewrite E, MS. cbn [bind commit fst snd].
      pose proof (quiet _ _ _ _ _ _ _ NG AF) as AF'. cbn [ordersd pd_refs pd_val] in *. rewrite map_app in AX. apply Forall_app in AX. destruct AX as [AX1 AX2].
      inversion AX2 as [|? ? AXa AXb]; subst.
      destruct (kept_orders own q k h own h1 o1 v1 J AF' (ats_okf _ _ _ _ _ _ _ A1) AX1 S1) as [T1 T2].
      destruct (kept_orders own q k h own h1 o2 v2 J AF' (ats_okf _ _ _ _ _ _ _ A2) AXb S3) as [T3 T4].
      split; [|split; [reflexivity|]].
      * apply Forall2_app; [exact T1|]. constructor; [|exact T3]. split; [eapply kept_stands; eauto|reflexivity].
      * rewrite map_app. apply Forall_app. split; [exact T2|]. constructor; [|exact T4]. cbn [fst]. eapply kept_avoids; eauto.
  - (* a new one *)
    unfold hbind at 1, check at 1 in R. destruct (check_type [TStr; TInt] vc) eqn:CT.
    2: { injection R as <- <-. apply acts_same; auto. intros _ v y (vit & S & _ & ->) PV. rewrite (EV _ S), (FN _ PV), CT. reflexivity. }
    unfold hbind at 1, look at 1 in R. destruct (mk_sort (w_env W) vs) as [s'|e] eqn:MS.
    2: { injection R as <- <-. apply acts_same; auto. intros _ v y (vit & S & _ & ->) PV. rewrite (EV _ S), (FN _ PV), CT. cbn [bind negb]. rewrite MS. reflexivity. }
    unfold hbind at 1, alloc at 1 in R. fold (ord_obj cr s') in R.
    set (a := List.length h) in *. set (h1 := h ++ [ord_obj cr s']) in *. set (own1 := upd own a (q, (k, PItem (List.length items)))).
    assert (G1 : get h1 a = Some (ord_obj cr s')) by apply get_new.
    assert (AF : after G (cell own q k) own h own1 h1).
    { eapply after_alloc_in; [exact J|exact NQ|exact KQ|discriminate|]. intros a0 r0 [E|[E|[]]]; injection E as <- <-; [apply okr_mine; exact OC|exact Logic.I]. }
    pose proof (keeps_after _ _ _ _ _ _ AF) as KP. pose proof (inv_after _ _ _ _ _ _ AF) as J1.
    assert (GO : forall b s, own b = Some (q, (k, s)) -> get h1 b = get h b). { intros b s OB. destruct (in_own _ _ J _ _ _ OB) as (LB & _). apply get_old. exact LB. }
    assert (Q1 : qparts own1 q h1 k c ", " [] p l items). { eapply qparts_frame; [exact KP| |exact Q]. intros b s _ OB. eapply GO; eauto. }
    assert (A1 : ats (ord_at own1 q h1 k) 0 items os). { eapply ats_impl; [|exact A]. intros j r x _ _. apply ord_frame; [exact KP|]. intros b s _ OB. eapply GO; eauto. }
    assert (OA : own1 a = Some (q, (k, PItem (List.length items)))) by apply upd_same.
    assert (NEW : ord_at own1 q h1 k (List.length items) (RPtr a) (cr, s')).
    { exists a. split; [reflexivity|]. split; [exact OA|]. split; [exact G1|]. eapply okr_keeps; eauto. }
    destruct (append_mine G own1 h1 q k c ", " [] p l items (RPtr a) J1 Q1 (ats_mine _ _ _ _ _ _ _ _ (ord_mine own1 q h1 k) A1) (ord_mine _ _ _ _ _ _ _ NEW)) as (h2 & E2 & AF2 & Q2 & GO2).
    rewrite E2 in R. injection R as <- <-.
    pose proof (keeps_after _ _ _ _ _ _ AF2) as KP2.
    assert (FX : forall j, fixed own1 q k (fun s => idx s = Some j) h1 h2).
    { intros j b s HS OB. apply GO2. intros ->. destruct Q1 as (_ & _ & OL). rewrite OL in OB. injection OB as <-. discriminate. }
    pose proof (after_cells _ _ _ _ _ _ _ _ _ AF AF2) as AFF.
    exists own1, (os ++ [(cr, s')]). split; [exact AFF|]. split.
    + exists l, (items ++ [RPtr a]). split; [exact Q2|]. apply ats_app; [eapply ats_len; eauto|]. split.
      * eapply ats_impl; [|exact A1]. intros j r x _ _. apply ord_frame; [exact KP2|apply FX].
      * split; [|exact Logic.I]. cbn [Nat.add]. eapply ord_frame; [exact KP2|apply FX|exact NEW].
    + intros NG v y (vit & S & AT & ->) PV AX. rewrite (EV _ S), (FN _ PV), CT. cbn [bind negb]. rewrite MS. cbn [bind commit fst snd].
      pose proof (quiet _ _ _ _ _ _ _ NG AFF) as AF'. cbn [ordersd pd_refs pd_val] in *.
      destruct (kept_orders own q k h own1 h2 os v J AF' (ats_okf _ _ _ _ _ _ _ A) AX PV) as [T1 T2].
      destruct NA as [NA1 NA2]; [intros X; apply reach_atom in X; discriminate|exact AT|].
      split; [|split; [reflexivity|]].
      * apply Forall2_app; [exact T1|]. constructor; [|constructor]. split; [cbn [fst]|reflexivity]. refine (kept_stands _ _ _ _ _ _ _ _ J AF' OC NA1 _). apply stands_view. exact VC.
      * rewrite map_app. apply Forall_app. split; [exact T2|]. constructor; [|constructor]. cbn [fst]. exact (kept_avoids _ _ _ _ _ _ _ _ J AF' OC NA1 NA1).
  - injection R as <- <-. apply acts_same; auto. intros _ v y (vit & S & _ & ->) PV. rewrite (EV _ S), (FN _ PV). reflexivity.
Qed.
(** References in the arguments of a call, and the values they stand for. *)
Definition kavoids (h : heap) (q : addr) (args : list ref) (kwds : rkwargs) : Prop :=
  Forall (avoids h q) args /\ Forall (fun x => avoids h q (snd x)) kwds.
Lemma avoids_elements : forall h q, elements (avoids h q) h.
Proof.
  intros h q. constructor.
  - intros a H. apply reach_atom in H. discriminate.
  - intros p k l a r A G N I R. apply A. eapply reach_step; [|exact R]. exists k, l, a. auto.
Qed.
Lemma h_orders_spec : forall W G q k cq c p own h os args kwds h' o, inv own h -> own q = None -> kind_of h q = Some (OInst cq) ->
  pd_at (ordersd q k c p) own h os -> kokr own h args kwds -> h_orders W (RPtr p) args kwds h = (h', o) ->
  acts (ordersd q k c p) G (fun own => cell own q k) q own h os h' o (fun v y => exists vs vk, Forall2 (stands h) args vs /\ Forall2 (kw_stands h) kwds vk /\
    kavoids h q args kwds /\ y = orders_add W v vs vk).
Proof.
  intros W G q k cq c p own h os args kwds h' o J NQ KQ PT [OA OK] R. unfold h_orders in R.
  unfold hbind at 1, look at 1 in R. destruct (r_parse_args W h alias_opts args kwds) as [its|e] eqn:PA.
  - pose proof (el_parse _ _ (okr_elements _ _ J) _ _ _ _ _ OA OK PA) as OT.
    eapply acts_more.
    + eapply acts_loop with (f := order_item W); [|exact J|exact NQ|exact KQ|exact PT|exact OT|exact R].
      intros own0 h0 x it h1 o1 J0 NQ0 KQ0 PT0 OT0 R0. eapply h_order1_spec; eauto.
    + intros NG v y (vs & vk & SV & SK & [CA CK] & ->) _.
      pose proof (parse_stands W h alias_opts args vs kwds vk SV SK) as PS. rewrite PA in PS. unfold orders_add.
      destruct (parse_args W alias_opts vs vk) as [vits|]; cbn in PS; [|contradiction].
      exists vits. split; [exact PS|]. split; [eapply el_parse; [apply avoids_elements|exact CA|exact CK|exact PA]|reflexivity].
  - injection R as <- <-. apply acts_same; auto. intros NG v y (vs & vk & SV & SK & _ & ->) _.
    pose proof (parse_stands W h alias_opts args vs kwds vk SV SK) as PS. rewrite PA in PS. unfold orders_add.
    destruct (parse_args W alias_opts vs vk) as [vits|]; cbn in PS; [contradiction|]. subst. reflexivity.
Qed.
