(** Lemmas: join and on. *)
From Coq Require Import Lia.
From Verif Require Import Base NumFmt Value Backend Eq Render ParseArgs Build Heap SpecHeap PfHeap PfHeapAlike PfHeapFrame PfHeapView HeapBuild SpecShare PfShare PfOwn PfParts PfNewItems PfMethods PfLayout PfOrders PfTables.
Open Scope nat_scope.
Local Arguments view : simpl never.

Lemma ats_last : forall X (P : nat -> ref -> X -> Prop) items i xs, ats P i items xs ->
  (items = [] /\ xs = []) \/ exists items1 r xs1 x, items = items1 ++ [r] /\ xs = xs1 ++ [x] /\ List.length items1 = List.length xs1 /\
    ats P i items1 xs1 /\ P (i + List.length items1) r x.
Proof.
  intros X P items. induction items as [|r items IH]; intros i [|x xs] A; cbn in A; try contradiction; [left; auto|right].
  destruct A as [A B]. destruct (IH _ _ B) as [[-> ->]|(i1 & r1 & x1 & y & -> & -> & L & C & D)].
  - exists [], r, [], x. cbn. rewrite Nat.add_0_r. auto.
  - exists (r :: i1), r1, (x :: x1), y. cbn. replace (i + S (List.length i1)) with (S i + List.length i1) by lia. repeat split; auto.
Qed.
Lemma last_ref_app : forall l x, last_ref (l ++ [x]) = Some x.
Proof. induction l as [|y l IH]; intros x; [reflexivity|]. cbn [app last_ref]. rewrite IH. destruct l; reflexivity. Qed.
Lemma upd_last_app : forall A B (f : A -> A * B) l x, upd_last f (l ++ [x]) = let (y, b) := f x in Some (l ++ [y], b).
Proof.
  intros A B f l x. induction l as [|z l IH]; [cbn; destruct (f x); reflexivity|]. cbn [app upd_last]. rewrite IH. destruct (f x) as [y b].
  destruct l; reflexivity.
Qed.
Lemma forall2_last : forall A B (R : A -> B -> Prop) l x ys, Forall2 R (l ++ [x]) ys -> exists l' y, ys = l' ++ [y] /\ Forall2 R l l' /\ R x y.
Proof.
  intros A B R l x ys F. apply Forall2_app_inv_l in F. destruct F as (l1 & l2 & F1 & F2 & ->). inversion F2 as [|? y ? ? RY F3]; subst. inversion F3; subst.
  exists l1, y. auto.
Qed.

(** A number for one more join. *)
Definition fresh_number (g : nat -> nat) (n : nat) : nat := S (list_max (map g (seq 0 n))).
Definition numbers (g : nat -> nat) (n i : nat) : nat := if Nat.ltb i n then g i else fresh_number g n.
Lemma numbers_old : forall g n i, i < n -> numbers g n i = g i.
Proof. intros g n i L. unfold numbers. destruct (Nat.ltb_spec i n); [reflexivity|lia]. Qed.
Lemma numbers_new : forall g n, numbers g n n = fresh_number g n.
Proof. intros g n. unfold numbers. destruct (Nat.ltb_spec n n); [lia|reflexivity]. Qed.
Lemma fresh_above : forall g n i, i < n -> g i < fresh_number g n.
Proof.
  intros g n i L. unfold fresh_number. pose proof (proj1 (list_max_le (map g (seq 0 n)) _) (Nat.le_refl _)) as F. rewrite Forall_forall in F.
  apply Nat.lt_succ_r. apply F. apply in_map. apply in_seq. lia.
Qed.
Lemma numbers_ok : forall g n, numbered g n -> numbered (numbers g n) (S n).
Proof.
  intros g n G i j LI LJ E. destruct (Nat.eq_dec i n) as [->|NI]; destruct (Nat.eq_dec j n) as [->|NJ]; auto.
  - rewrite numbers_new, numbers_old in E by lia. pose proof (fresh_above g n j). lia.
  - rewrite numbers_new, numbers_old in E by lia. pose proof (fresh_above g n i). lia.
  - rewrite !numbers_old in E by lia. apply G; [lia|lia|exact E].
Qed.
Lemma one_refs : forall x, flat_map tab_refs [x] = tb_name x :: tb_alias x :: flat_map join_refs (tb_joins x).
Proof. intros x. cbn. rewrite app_nil_r. reflexivity. Qed.
Definition join_rest (ty : jointy) (t : ref) (p : addr) : hm unit :=
  doh o <- new_parts COnConditions " AND " [];
  doh d <- alloc ODict [(LKey, astr "type"); (LVal, jointy_ref ty);
                        (LKey, astr "table"); (LVal, RPtr p); (LKey, astr "ons"); (LVal, RPtr o)];
  doh js <- look (fun h => attr h "_joins" t);
  push js (RPtr d).
Definition add_join (ty : jointy) (x : res (val * val)) (t : table val) : table val * outcome :=
  commit t (do x <- x; Ok (MkTable (tb_name t) (tb_alias t) (tb_joins t ++ [MkJoin ty (fst x) (snd x) []]))).
Lemma last_table_at : forall own q h k c p l items, qparts own q h k c ", " [] p l items ->
  last_table (RPtr p) h = (h, match last_ref items with Some r => Ok r | None => Err EInvalidQuery end).
Proof. intros own q h k c p l items Q. unfold last_table, hbind, look. rewrite (parts_at_of _ _ _ _ _ _ _ (proj1 Q)). reflexivity. Qed.
Lemma get_put_x : forall h p o x, p < List.length h -> get (put h p o) x = if Nat.eqb x p then Some o else get h x.
Proof. intros h p o x L. destruct (Nat.eqb_spec x p) as [->|N]; [apply get_put_same; exact L|apply get_put_other; exact N]. Qed.
Lemma join_mine : forall own q h k i j r x, join_at own q h k i j r x -> mine own h q r.
Proof. intros own q h k i j r x (d & t & tj & o & ol & -> & O1 & _ & _ & _ & _ & G1 & _). cbn. split; [eapply get_lt; eauto|]. rewrite O1. reflexivity. Qed.
Lemma join_new_spec : forall ty G q k cq c p own h ts n a h' o, inv own h -> own q = None -> kind_of h q = Some (OInst cq) ->
  pd_at (tabsd q k c p) own h ts -> okr own h n -> okr own h a ->
  (doh t <- last_table (RPtr p); doh x <- new_table n a; join_rest ty t x) h = (h', o) ->
  acts (tabsd q k c p) G (fun own => cell own q k) q own h ts h' o
    (fun v y => exists vn va, stands h n vn /\ stands h a va /\ avoids h q n /\ avoids h q a /\ y = on_last_table (add_join ty (mk_table vn va)) v).
Proof.
  intros ty G q k cq c p own h ts n a h' o J NQ KQ (l & items & Q & A) ON OA R.
  assert (PT : pd_at (tabsd q k c p) own h ts) by (exists l, items; auto).
  unfold hbind at 1 in R. rewrite (last_table_at _ _ _ _ _ _ _ _ Q) in R.
  destruct (ats_last _ _ _ _ _ A) as [[-> ->]|(items1 & r & ts1 & t & -> & -> & LL & A1 & AT)].
  { injection R as <- <-. apply acts_same; auto. intros _ v y (vn & va & _ & _ & _ & _ & ->) PV. inversion PV; subst. reflexivity. }
  rewrite last_ref_app in R. cbn [Nat.add] in AT. set (i := List.length items1) in *.
  unfold hbind at 1 in R. destruct (new_table n a h) as [h2 r2] eqn:NT.
  destruct (new_table_cases _ _ _ _ _ NT) as [(e & -> & -> & HE)|(-> & -> & vn & va & SN & SA & MT)]; clear NT.
  { injection R as <- <-. apply acts_same; auto. intros _ v y (vn & va & SN & SA & _ & _ & ->) PV. apply forall2_last in PV. destruct PV as (v1 & vt & -> & _ & _).
    unfold on_last_table. rewrite upd_last_app. unfold add_join. rewrite (HE _ _ SN SA). reflexivity. }
  pose proof AT as AT0. destruct AT as (ta & ja & js & g & GI & -> & OT & OJ & GT & GJ & CN & CA & AJ).
  set (j := fresh_number g (List.length js)) in *. set (z := List.length h) in *.
  set (o1 := MkObj OList []) in *. set (o2 := tab_obj n a z) in *. set (h1 := h ++ [o1]) in *. set (h2 := h1 ++ [o2]) in *.
  set (o3 := MkObj (OInst CListOfQueryParts) [(LAttr "_separator", astr " AND ")]). set (h3 := h2 ++ [o3]).
  set (o4 := MkObj (OInst COnConditions) [(LAttr "_parts", RPtr (S (S z)))]). set (h4 := h3 ++ [o4]).
  set (o5 := join_obj ty (S z) (S (S (S z)))). set (h5 := h4 ++ [o5]).
  assert (L1 : List.length h1 = S z) by (unfold h1; rewrite app_len; reflexivity).
  assert (L2 : List.length h2 = S (S z)) by (unfold h2; rewrite app_len; congruence).
  assert (L3 : List.length h3 = S (S (S z))) by (unfold h3; rewrite app_len; congruence).
  assert (L4 : List.length h4 = S (S (S (S z)))) by (unfold h4; rewrite app_len; congruence).
  assert (L5 : List.length h5 = S (S (S (S (S z))))) by (unfold h5; rewrite app_len; congruence).
  assert (OLD : forall b, b < z -> get h5 b = get h b). { intros b LB. unfold h5, h4, h3, h2, h1. rewrite !get_ext; [reflexivity|exact LB|..]; rewrite ?app_len; unfold z in *; lia. }
  assert (G1 : get h5 z = Some o1). { unfold h5. rewrite (get_ext h4) by lia. unfold h4. rewrite (get_ext h3) by lia. unfold h3. rewrite (get_ext h2) by lia. unfold h2. rewrite (get_ext h1) by lia. apply get_new. }
  assert (G2 : get h5 (S z) = Some o2). { unfold h5. rewrite (get_ext h4) by lia. unfold h4. rewrite (get_ext h3) by lia. unfold h3. rewrite (get_ext h2) by lia. unfold h2. rewrite <- L1. apply get_new. }
  assert (G3 : get h5 (S (S z)) = Some o3). { unfold h5. rewrite (get_ext h4) by lia. unfold h4. rewrite (get_ext h3) by lia. unfold h3. rewrite <- L2. apply get_new. }
  assert (G4 : get h5 (S (S (S z))) = Some o4). { unfold h5. rewrite (get_ext h4) by lia. unfold h4. rewrite <- L3. apply get_new. }
  assert (G5 : get h5 (S (S (S (S z)))) = Some o5). { unfold h5. rewrite <- L4. apply get_new. }
  assert (LT : ta < z) by (eapply get_lt; eauto). assert (LJ : ja < z) by (eapply get_lt; eauto).
  (* the run *)
  assert (RR : h' = put h5 ja (MkObj OList (map item js ++ [(LItem, RPtr (S (S (S (S z)))))])) /\ o = Ok tt).
  { unfold join_rest in R. unfold hbind at 1 in R. unfold new_parts in R. unfold hbind at 1 in R. unfold alloc at 1 in R. rewrite L2 in R.
    unfold alloc at 1 in R. fold o3 h3 o4 in R. rewrite L3 in R. unfold hbind at 1, alloc at 1 in R.
    fold h4 in R. fold (join_obj ty (S z) (S (S (S z)))) in R. fold o5 h5 in R. rewrite L4 in R.
    unfold hbind at 1, look at 1 in R. rewrite (joins_attr h5 ta (tb_name t) (tb_alias t) ja) in R by (rewrite OLD by exact LT; exact GT).
    unfold push, change in R. rewrite OLD in R by exact LJ. rewrite GJ in R. injection R as <- <-. auto. }
  destruct RR as [-> ->]. clear R.
  (* owners *)
  set (w1 := upd own z (q, (k, PJJoins i j))). set (w2 := upd w1 (S z) (q, (k, PJTab i j))). set (w3 := upd w2 (S (S z)) (q, (k, POnList i j))).
  set (w4 := upd w3 (S (S (S z))) (q, (k, POns i j))). set (w5 := upd w4 (S (S (S (S z)))) (q, (k, PJoin i j))).
  assert (LQ : q < z) by (eapply q_lt; eauto).
  assert (F1 : after G (cell own q k) own h w1 h1). { eapply after_alloc_in; eauto; [discriminate|intros ? ? []]. }
  assert (F2 : after G (cell w1 q k) w1 h1 w2 h2).
  { unfold w2. rewrite <- L1. eapply after_alloc_in; [apply F1|unfold w1; rewrite upd_other by lia; exact NQ|apply F1; exact KQ|discriminate|].
    intros a0 r0 [E|[E|[E|[]]]]; injection E as <- <-; try (apply okr_mine; eapply okr_keeps; [apply F1|assumption]; fail).
    cbn. split; [lia|]. unfold w1. rewrite upd_same. reflexivity. }
  pose proof (after_cells _ _ _ _ _ _ _ _ _ F1 F2) as F12.
  assert (F3 : after G (cell w2 q k) w2 h2 w3 h3).
  { unfold w3. rewrite <- L2. eapply after_alloc_in; [apply F12|unfold w2, w1; rewrite !upd_other by lia; exact NQ|apply F12; exact KQ|discriminate|].
    intros a0 r0 [E|[]]; injection E as <- <-; exact Logic.I. }
  pose proof (after_cells _ _ _ _ _ _ _ _ _ F12 F3) as F13.
  assert (F4 : after G (cell w3 q k) w3 h3 w4 h4).
  { unfold w4. rewrite <- L3. eapply after_alloc_in; [apply F13|unfold w3, w2, w1; rewrite !upd_other by lia; exact NQ|apply F13; exact KQ|discriminate|].
    intros a0 r0 [E|[]]; injection E as <- <-. cbn. split; [lia|]. unfold w3. rewrite upd_same. reflexivity. }
  pose proof (after_cells _ _ _ _ _ _ _ _ _ F13 F4) as F14.
  assert (F5 : after G (cell w4 q k) w4 h4 w5 h5).
  { unfold w5. rewrite <- L4. eapply after_alloc_in; [apply F14|unfold w4, w3, w2, w1; rewrite !upd_other by lia; exact NQ|apply F14; exact KQ|discriminate|].
    intros a0 r0 I. cbn in I. repeat (destruct I as [E|I]; [injection E as <- <-; try exact Logic.I|]); [| |contradiction].
    - cbn. split; [lia|]. unfold w4, w3, w2. rewrite !upd_other by lia. rewrite upd_same. reflexivity.
    - cbn. split; [lia|]. unfold w4. rewrite upd_same. reflexivity. }
  pose proof (after_cells _ _ _ _ _ _ _ _ _ F14 F5) as F15. pose proof (inv_after _ _ _ _ _ _ F15) as J5. pose proof (keeps_after _ _ _ _ _ _ F15) as K5.
  set (h6 := put h5 ja _).
  assert (FX5 : forall X, fixed own q k X h h5). { apply fix_all; [exact OLD|exact J]. }
  assert (AJ5 : ats (fun n => join_at w5 q h5 k i (g n)) 0 js (tb_joins t)). { eapply ats_impl; [|exact AJ]. intros j0 r x _ _. apply join_frame; auto. }
  assert (GJ5 : get h5 ja = Some (MkObj OList (map item js))) by (rewrite OLD; auto).
  assert (OJ5 : w5 ja = Some (q, (k, PJoins i))) by (eapply keep_own; eauto).
  assert (NEW : join_at w5 q h5 k i j (RPtr (S (S (S (S z))))) (MkJoin ty n a [])).
  { exists (S (S (S (S z)))), (S z), z, (S (S (S z))), (S (S z)). split; [reflexivity|]. unfold w5, w4, w3, w2, w1.
    split; [apply upd_same|]. split; [rewrite !upd_other by lia; apply upd_same|]. split; [rewrite !upd_other by lia; apply upd_same|].
    split; [rewrite upd_other by lia; apply upd_same|]. split; [rewrite !upd_other by lia; apply upd_same|].
    split; [exact G5|]. split; [exact G2|]. split; [exact G1|]. split; [split; [exact G4|exact G3]|].
    split; [eapply okr_keeps; [exact K5|exact ON]|]. split; [eapply okr_keeps; [exact K5|exact OA]|constructor]. }
  assert (F6 : after G (cell w5 q k) w5 h5 w5 h6).
  { eapply after_write; [exact J5|exact GJ5|right; eexists; exact OJ5|]. intros a0 r0 I. right. exists q. split; [|right; eauto].
    apply in_app_or in I. destruct I as [I|[E|[]]].
    - apply in_map_iff in I. destruct I as (y & E & I). injection E as <- <-. exact (ats_mine _ _ _ _ _ _ _ _ (fun n => join_mine w5 q h5 k i (g n)) AJ5 _ I).
    - injection E as <- <-. exact (join_mine _ _ _ _ _ _ _ _ NEW). }
  pose proof (keeps_after _ _ _ _ _ _ F6) as K6. pose proof (after_cells _ _ _ _ _ _ _ _ _ F15 F6) as AF. pose proof (keeps_after _ _ _ _ _ _ AF) as KP.
  assert (G6 : forall b, b <> ja -> get h6 b = get h5 b) by (intros; apply get_put_other; assumption).
  assert (FX6 : forall X : place -> Prop, ~ X (PJoins i) -> fixed w5 q k X h5 h6).
  { intros X NX b s HS OB. apply G6. intros ->. rewrite OJ5 in OB. injection OB as <-. contradiction. }
  assert (FXX : forall X : place -> Prop, ~ X (PJoins i) -> fixed own q k X h h6).
  { intros X NX b s HS OB. pose proof (owned_lt _ _ _ _ J OB) as LB. rewrite <- (OLD b LB). apply G6. intros ->. rewrite OJ in OB. injection OB as <-. contradiction. }
  exists w5, (ts1 ++ [MkTable (tb_name t) (tb_alias t) (tb_joins t ++ [MkJoin ty n a []])]). split; [exact AF|]. split.
  - exists l, (items1 ++ [RPtr ta]). split; [eapply qparts_frame; [exact KP| |exact Q]; apply FXX; discriminate|].
    apply ats_app; [exact LL|]. split.
    + eapply ats_impl; [|exact A1]. intros i0 r x _ LI. apply tab_frame; [exact KP|]. apply FXX. cbn. intros E. injection E as E. fold i in LI. lia.
    + split; [|exact Logic.I]. cbn [Nat.add]. fold i.
      exists ta, ja, (js ++ [RPtr (S (S (S (S z))))]), (numbers g (List.length js)). split; [rewrite app_length; cbn [List.length]; rewrite Nat.add_1_r; apply numbers_ok; exact GI|]. split; [reflexivity|]. split; [eapply keep_own; [exact KP|exact GT|exact OT]|]. split; [exact OJ5|].
      cbn [tb_name tb_alias tb_joins]. split; [rewrite G6, OLD by (try exact LT; intros ->; rewrite GT in GJ; discriminate); exact GT|].
      split; [unfold h6; rewrite get_put_same by lia; rewrite map_app; reflexivity|].
      split; [eapply okr_keeps; [exact KP|exact CN]|]. split; [eapply okr_keeps; [exact KP|exact CA]|].
      apply ats_app; [eapply ats_len; eauto|]. split.
      * eapply ats_impl; [|exact AJ5]. intros j0 r x _ LI. rewrite numbers_old by exact LI. apply join_frame; [exact K6|]. apply FX6. discriminate.
      * split; [|exact Logic.I]. cbn [Nat.add]. rewrite numbers_new. eapply join_frame; [exact K6| |exact NEW]. apply FX6. discriminate.
  - intros NG v y (vn' & va' & SN' & SA' & NN & NA & ->) PV AX. cbn [tabsd pd_val pd_refs] in *.
    rewrite <- (stands_fun _ _ _ _ SN SN'), <- (stands_fun _ _ _ _ SA SA').
    pose proof (quiet _ _ _ _ _ _ _ NG AF) as AF'.
    destruct (kept_tabs own q k h w5 h6 _ v J AF' (tabs_okr _ _ _ _ _ _ _ A) AX PV) as [T T'].
    apply forall2_last in T. destruct T as (v1 & vt & -> & T1 & (T2 & T3 & T4)).
    unfold on_last_table. rewrite upd_last_app. unfold add_join. rewrite MT. cbn [bind commit fst snd].
    split; [|split; [reflexivity|]].
    + apply Forall2_app; [exact T1|]. constructor; [|constructor]. split; [exact T2|]. split; [exact T3|]. cbn [tb_joins].
      apply Forall2_app; [exact T4|]. constructor; [|constructor]. split; [reflexivity|]. split; [exact (kept_stands _ _ _ _ _ _ _ _ J AF' ON NN SN)|].
      split; [exact (kept_stands _ _ _ _ _ _ _ _ J AF' OA NA SA)|constructor].
    + rewrite flat_map_app in T' |- *. apply Forall_app in T'. destruct T' as [T'1 T'2]. apply Forall_app. split; [exact T'1|].
      rewrite one_refs in T'2 |- *. cbn [tb_name tb_alias tb_joins]. inversion T'2 as [|? ? U1 U2]; subst. inversion U2 as [|? ? U3 U4]; subst.
      constructor; [exact U1|]. constructor; [exact U3|]. rewrite flat_map_app. apply Forall_app. split; [exact U4|]. cbn [flat_map join_refs j_name j_alias j_ons app].
      constructor; [exact (kept_avoids _ _ _ _ _ _ _ _ J AF' ON NN NN)|]. constructor; [exact (kept_avoids _ _ _ _ _ _ _ _ J AF' OA NA NA)|constructor].
Qed.

(** The argument of join. *)
Definition one_entry (h : heap) (r : ref) : option (ref * ref) := match dict_at h r with Some [x] => Some x | _ => None end.
Lemma join_other : forall W v, (forall s, v <> VStr s) -> (forall n a, ~ (v = VSeq KList [n; a] \/ v = VSeq KTuple [n; a])) -> (forall x, v <> VDict [x]) ->
  join_target W v = match w_str W v with Ok _ => Err EInvalidArgument | Err e => Err e end.
Proof.
  intros W v A B C. destruct v; try reflexivity.
  - exfalso. eapply A. reflexivity.
  - destruct k; try reflexivity; destruct l as [|n [|a [|b l]]]; try reflexivity; exfalso; eapply B; eauto.
  - destruct l as [|[n a] [|b l]]; try reflexivity. exfalso. eapply C. reflexivity.
Qed.
Lemma joined_cases : forall W arg h h1 r, joined_table W arg h = (h1, r) ->
  (one_entry h arg = None /\ exists n a, new_table n a h = (h1, r) /\ (forall P, elements P h -> P arg -> P n /\ P a) /\
     forall v, stands h arg v -> exists vn va, stands h n vn /\ stands h a va /\ join_target W v = mk_table vn va) \/
  (exists d l n a, arg = RPtr d /\ get h d = Some (MkObj ODict l) /\ pairs_of l = [(n, a)] /\ new_table n a (put h d (MkObj ODict [])) = (h1, r)) \/
  (one_entry h arg = None /\ exists e, h1 = h /\ r = Err e /\ forall v, stands h arg v -> join_target W v = Err e).
Proof.
  intros W arg h h1 r R. unfold joined_table in R.
  assert (DS : forall rs, seq_at h arg = Some rs -> dict_at h arg = None).
  { intros rs S. destruct arg as [x|p]; [discriminate|]. cbn in *. destruct (get h p) as [[[] ?]|]; try discriminate; reflexivity. }
  assert (REST : one_entry h arg = None -> (forall n a, seq_at h arg <> Some [n; a]) ->
     (doh v <- look (fun h => view h arg);
       match v with
       | VStr _ => new_table arg r_none
       | _ => doh _ <- look (fun _ => w_str W v); look (fun _ => Err EInvalidArgument)
       end) h = (h1, r) ->
     (exists n a, new_table n a h = (h1, r) /\ (forall P, elements P h -> P arg -> P n /\ P a) /\
     forall v, stands h arg v -> exists vn va, stands h n vn /\ stands h a va /\ join_target W v = mk_table vn va) \/
     (exists e, h1 = h /\ r = Err e /\ forall v, stands h arg v -> join_target W v = Err e)).
  { intros NO NS R0. unfold hbind at 1, look at 1 in R0. destruct (view h arg) as [v|e] eqn:VA.
    2: { injection R0 as <- <-. right. exists e. split; [reflexivity|]. split; [reflexivity|]. intros v S. apply view_cases in S. congruence. }
    pose proof VA as SV. apply stands_view in SV.
    assert (ST : (exists s, v = VStr s) \/ (forall s, v <> VStr s)) by (destruct v; try (right; intros ? E; discriminate E); left; eauto).
    destruct ST as [[s ->]|NSTR].
    2: { assert (EJ : join_target W v = match w_str W v with Ok _ => Err EInvalidArgument | Err e => Err e end).
         { apply join_other; [exact NSTR| |].
           - intros n a [E|E]; subst v; apply stands_seq in SV; destruct SV as (rs & E & F); inversion F as [|? ? ? ? ? F1]; subst; inversion F1 as [|? ? ? ? ? F2]; subst; inversion F2; subst; eapply NS; eauto.
           - intros x E; subst v; apply stands_dict in SV; destruct SV as (rs & E & F); inversion F as [|? ? ? ? ? F1]; subst; inversion F1; subst; unfold one_entry in NO; rewrite E in NO; discriminate. }
         assert (R1 : (doh _ <- look (fun _ => w_str W v); look (fun _ => Err EInvalidArgument)) h = (h1, r)).
         { destruct v; try exact R0. exfalso. eapply NSTR; eauto. }
         unfold hbind at 1, look at 1 in R1. right. destruct (w_str W v) as [w|e] eqn:WS; injection R1 as <- <-; eexists; (split; [reflexivity|]); (split; [reflexivity|]);
           intros v' S'; rewrite <- (stands_fun _ _ _ _ SV S'); exact EJ. }
    left. exists arg, r_none. split; [exact R0|]. split; [intros P E HP; split; [exact HP|apply (el_atom _ _ E)]|].
    intros v' S'. rewrite <- (stands_fun _ _ _ _ SV S'). eexists; eexists. split; [exact SV|]. split; [apply stands_atom; reflexivity|reflexivity]. }
  destruct (seq_at h arg) as [rs|] eqn:S.
  - assert (NO : one_entry h arg = None) by (unfold one_entry; rewrite (DS _ eq_refl); reflexivity). rewrite (DS _ eq_refl) in R.
    destruct rs as [|n [|a [|b rs]]]; try (destruct (REST NO ltac:(intros; discriminate) R) as [X|X]; [left; auto|right; right; auto]; fail).
    left. split; [exact NO|]. exists n, a. split; [exact R|]. split.
    + intros P E HP. pose proof (el_seq P h E _ _ HP S) as F. inversion F as [|? ? F1 F2]; subst. inversion F2; subst. auto.
    + intros v SV. destruct (seq_some _ _ _ _ SV S) as (l & EV & F). inversion F as [|? vn ? ? Sn F1]; subst. inversion F1 as [|? va ? ? Sa F2]; subst. inversion F2; subst.
      exists vn, va. split; [exact Sn|]. split; [exact Sa|]. destruct EV as [->| ->]; reflexivity.
  - destruct (dict_at h arg) as [ds|] eqn:D; [|destruct (REST ltac:(unfold one_entry; rewrite D; reflexivity) ltac:(intros; discriminate) R) as [X|X]; [left|right; right]; (split; [unfold one_entry; rewrite D; reflexivity|exact X])].
    destruct ds as [|[n a] [|y ds]]; try (destruct (REST ltac:(unfold one_entry; rewrite D; reflexivity) ltac:(intros; discriminate) R) as [X|X]; [left|right; right]; (split; [unfold one_entry; rewrite D; reflexivity|exact X])).
    right. left. destruct arg as [x|d]; [discriminate|]. cbn in D. destruct (get h d) as [[kd l]|] eqn:GD; [|discriminate]. destruct kd; try discriminate. injection D as D.
    exists d, l, n, a. split; [reflexivity|]. split; [exact GD|]. split; [exact D|].
    unfold hbind at 1, change in R. rewrite GD in R. exact R.
Qed.
(** join *)
Definition full_ok (W : world) (ty : jointy) : bool := match ty with JFull => supports_full_join (e_be (w_env W)) | _ => true end.
Lemma h_join_eq : forall W ty self arg h, h_join W ty self arg h =
  if full_ok W ty then (doh t <- last_table self; doh p <- joined_table W arg; join_rest ty t p) h else (h, Err EInvalidQuery).
Proof. intros W [] self arg h; try reflexivity. unfold h_join, full_ok. destruct (supports_full_join _); reflexivity. Qed.
Lemma tables_join_eq : forall W ty ts va, tables_join W ty ts va =
  if full_ok W ty then on_last_table (add_join ty (join_target W va)) ts else (ts, Err EInvalidQuery).
Proof. intros W [] ts va; try reflexivity. Qed.
Lemma h_join_plain : forall W ty G q k cq c p own h ts arg h' o, inv own h -> own q = None -> kind_of h q = Some (OInst cq) ->
  pd_at (tabsd q k c p) own h ts -> okr own h arg -> one_entry h arg = None -> h_join W ty (RPtr p) arg h = (h', o) ->
  acts (tabsd q k c p) G (fun own => cell own q k) q own h ts h' o
    (fun v y => exists va, stands h arg va /\ avoids h q arg /\ y = tables_join W ty v va).
Proof.
  intros W ty G q k cq c p own h ts arg h' o J NQ KQ PT OK NO R. rewrite h_join_eq in R.
  destruct (full_ok W ty) eqn:FO.
  2: { injection R as <- <-. apply acts_same; auto. intros _ v y (va & _ & _ & ->) _. rewrite tables_join_eq, FO. reflexivity. }
  pose proof PT as (l & items & Q & A).
  destruct (joined_table W arg h) as [h1 r1] eqn:JT.
  destruct (joined_cases _ _ _ _ _ JT) as [(_ & n & a & NT & EL & HV)|[(d & ll & n & a & -> & GD & PD & _)|(_ & e & -> & -> & HE)]].
  - destruct (EL (okr own h) (okr_elements _ _ J) OK) as [ON OA].
    eapply acts_more; [eapply (join_new_spec ty G q k cq c p own h ts n a h' o); eauto|].
    + unfold hbind at 1. unfold hbind at 1 in R. rewrite (last_table_at _ _ _ _ _ _ _ _ Q) in *. destruct (last_ref items); [|exact R].
      unfold hbind at 1. unfold hbind at 1 in R. rewrite NT. rewrite JT in R. exact R.
    + intros _ v y (va & SV & AV & ->) _. destruct (HV _ SV) as (vn & vx & S1 & S2 & E). destruct (EL (avoids h q) (avoids_elements h q) AV) as [A1 A2].
      exists vn, vx. rewrite tables_join_eq, FO, E. auto.
  - exfalso. unfold one_entry, dict_at in NO. rewrite GD, PD in NO. discriminate.
  - assert (RR : h' = h /\ o = match last_ref items with Some _ => Err e | None => Err EInvalidQuery end).
    { unfold hbind at 1 in R. rewrite (last_table_at _ _ _ _ _ _ _ _ Q) in R. destruct (last_ref items); [|injection R as <- <-; auto].
      unfold hbind at 1 in R. rewrite JT in R. injection R as <- <-. auto. }
    destruct RR as [-> ->]. apply acts_same; auto. intros _ v y (va & SV & AV & ->) PV. rewrite tables_join_eq, FO, (HE _ SV). unfold on_last_table.
    cbn [tabsd pd_val] in PV. destruct (ats_last _ _ _ _ _ A) as [[-> ->]|(items1 & r & ts1 & t & -> & -> & LL & A1 & AT)].
    + inversion PV; subst. reflexivity.
    + apply forall2_last in PV. destruct PV as (v1 & vt & -> & _ & _). rewrite upd_last_app, last_ref_app. reflexivity.
Qed.
(** With a dictionary of one entry the method works on, after the dictionary was emptied. *)
Lemma h_join_dict : forall W ty q k c p own h ts d ll n a h' o, inv own h -> own d = None ->
  pd_at (tabsd q k c p) own h ts -> get h d = Some (MkObj ODict ll) -> pairs_of ll = [(n, a)] -> h_join W ty (RPtr p) (RPtr d) h = (h', o) ->
  (h' = h /\ exists e, o = Err e /\ forall v va, pd_val (tabsd q k c p) h ts v -> tables_join W ty v va = (v, Err e)) \/
  ((doh t <- last_table (RPtr p); doh x <- new_table n a; join_rest ty t x) (put h d (MkObj ODict [])) = (h', o) /\ full_ok W ty = true).
Proof.
  intros W ty q k c p own h ts d ll n a h' o J OD PT GD PD R. rewrite h_join_eq in R.
  destruct (full_ok W ty) eqn:FO.
  2: { injection R as <- <-. left. split; [reflexivity|]. eexists. split; [reflexivity|]. intros v va _. rewrite tables_join_eq, FO. reflexivity. }
  pose proof PT as (l & items & Q & A). unfold hbind at 1 in R. rewrite (last_table_at _ _ _ _ _ _ _ _ Q) in R.
  destruct (last_ref items) as [t|] eqn:LR.
  2: { injection R as <- <-. left. split; [reflexivity|]. eexists. split; [reflexivity|]. intros v va PV. rewrite tables_join_eq, FO.
       destruct (ats_last _ _ _ _ _ A) as [[-> ->]|(items1 & r & ts1 & t & -> & -> & _)]; [|rewrite last_ref_app in LR; discriminate].
       cbn [tabsd pd_val] in PV. inversion PV; subst. reflexivity. }
  right. split; [|reflexivity].
  assert (Q1 : qparts own q (put h d (MkObj ODict [])) k c ", " [] p l items).
  { destruct Q as ([Q1 Q2] & Q3 & Q4). split; [split|auto]; rewrite get_put_other; auto; intros ->; congruence. }
  unfold hbind at 1. rewrite (last_table_at _ _ _ _ _ _ _ _ Q1), LR.
  unfold hbind at 1 in R. unfold joined_table in R. cbn [seq_at dict_at] in R. rewrite GD, PD in R. unfold hbind at 1, change in R. rewrite GD in R. exact R.
Qed.

(** on *)
Lemma h_on_spec : forall W (G : addr -> Prop) q k cq c p own h ts args kwds h' o, inv own h -> own q = None -> kind_of h q = Some (OInst cq) ->
  (forall y x, own y = Some x -> ~ G y) ->
  pd_at (tabsd q k c p) own h ts -> kokr own h args kwds -> kgin G h args kwds -> h_on W (RPtr p) args kwds h = (h', o) ->
  acts (tabsd q k c p) G (fun own => cell own q k) q own h ts h' o
    (fun v y => exists vs vk, Forall2 (stands h) args vs /\ Forall2 (kw_stands h) kwds vk /\ kavoids h q args kwds /\ y = tables_on W v vs vk).
Proof.
  intros W G q k cq c p own h ts args kwds h' o J NQ KQ GP PT KO KG R. pose proof PT as (l & items & Q & A).
  unfold h_on in R. unfold hbind at 1 in R. rewrite (last_table_at _ _ _ _ _ _ _ _ Q) in R.
  destruct (ats_last _ _ _ _ _ A) as [[-> ->]|(items1 & r & ts1 & t & -> & -> & LL & A1 & AT)].
  { injection R as <- <-. apply acts_same; auto. intros _ v y (vs & vk & _ & _ & _ & ->) PV. inversion PV; subst. reflexivity. }
  rewrite last_ref_app in R. cbn [Nat.add] in AT. set (i := List.length items1) in *.
  destruct AT as (ta & ja & js & g & GI & -> & OT & OJ & GT & GJ & CN & CA & AJ).
  unfold h_table_on in R. unfold hbind at 1, look at 1 in R. rewrite (joins_attr _ _ _ _ _ GT) in R. cbn [bind] in R. rewrite (refs_list _ _ _ GJ) in R. cbn [bind] in R.
  rewrite items_item in R. unfold hbind at 1, look at 1 in R.
  destruct (ats_last _ _ _ _ _ AJ) as [[-> EJ]|(js1 & d & xs1 & x & -> & EJ & LJ & AJ1 & AD)].
  { injection R as <- <-. apply acts_same; auto. intros _ v y (vs & vk & _ & _ & _ & ->) PV. cbn [tabsd pd_val] in PV. apply forall2_last in PV.
    destruct PV as (v1 & vt & -> & _ & (_ & _ & F)). rewrite EJ in F. destruct (tb_joins vt) as [|w ws] eqn:TV; [|inversion F]. unfold tables_on, on_last_table. rewrite upd_last_app.
    unfold table_on. rewrite TV. reflexivity. }
  rewrite last_ref_app in R. cbn [Nat.add] in AD. set (j := g (List.length js1)) in *.
  destruct AD as (da & tt' & tj & oa & ol & -> & O1 & O2 & O3 & O4 & O5 & G1 & G2 & G3 & P & C1 & C2 & C3).
  unfold hbind at 1, look at 1 in R. destruct (join_lookup _ _ _ _ _ G1) as (_ & _ & LO). rewrite LO in R.
  pose proof (h_where_spec W KOn G own COnConditions " AND " [] oa ol h (j_ons x) args kwds h' o (or_intror eq_refl) (GP _ _ O4) (GP _ _ O5) J P C3 KO KG R) as (add & AF & P' & O' & V).
  assert (AFC : after G (cell own q k) own h own h') by (eapply after_more; [| |exact AF]; [auto|intros y <-; eexists; exact O5]).
  pose proof (keeps_after _ _ _ _ _ _ AF) as KP.
  assert (GO : forall b s, own b = Some s -> b <> ol -> get h' b = get h b).
  { intros b s OB N. destruct AF as (_ & _ & F). destruct (F b (owned_lt _ _ _ _ J OB)) as [E|[X|X]]; [exact E|exfalso; eapply GP; eauto|congruence]. }
  assert (FX : forall X : place -> Prop, ~ X (POnList i j) -> fixed own q k X h h').
  { intros X NX b s HS OB. eapply GO; [exact OB|]. intros ->. rewrite O5 in OB. injection OB as <-. contradiction. }
  set (x' := MkJoin (j_type x) (j_name x) (j_alias x) (j_ons x ++ add)).
  exists own, (ts1 ++ [MkTable (tb_name t) (tb_alias t) (xs1 ++ [x'])]). split; [exact AFC|]. split.
  - exists l, (items1 ++ [RPtr ta]). split; [eapply qparts_frame; [exact KP| |exact Q]; apply FX; discriminate|].
    apply ats_app; [exact LL|]. split.
    + eapply ats_impl; [|exact A1]. intros i0 r x0 _ LI. apply tab_frame; [exact KP|]. apply FX. cbn. intros E. injection E as E. fold i in LI. lia.
    + split; [|exact Logic.I]. cbn [Nat.add]. fold i. exists ta, ja, (js1 ++ [RPtr da]), g. cbn [tb_name tb_alias tb_joins].
      assert (ND : forall b s, own b = Some (q, (k, s)) -> s <> POnList i j -> get h' b = get h b). { intros b s OB NS. eapply GO; [exact OB|]. intros ->. rewrite O5 in OB. injection OB as <-. contradiction. }
      split; [exact GI|]. split; [reflexivity|]. split; [exact OT|]. split; [exact OJ|].
      split; [rewrite (ND _ _ OT) by discriminate; exact GT|]. split; [rewrite (ND _ _ OJ) by discriminate; exact GJ|].
      split; [eapply okr_keeps; [exact KP|exact CN]|]. split; [eapply okr_keeps; [exact KP|exact CA]|].
      apply ats_app; [exact LJ|]. split.
      * eapply ats_impl; [|exact AJ1]. intros j0 r x0 _ LI. apply join_frame; [exact KP|]. apply FX. cbn. intros E. injection E as E. unfold j in E. rewrite app_length in GI. cbn [List.length] in GI. apply GI in E; lia.
      * split; [|exact Logic.I]. cbn [Nat.add]. fold j. exists da, tt', tj, oa, ol. cbn [x' j_type j_name j_alias j_ons].
        split; [reflexivity|]. do 5 (split; [assumption|]).
        split; [rewrite (ND _ _ O1) by discriminate; exact G1|]. split; [rewrite (ND _ _ O2) by discriminate; exact G2|]. split; [rewrite (ND _ _ O3) by discriminate; exact G3|].
        split; [exact P'|]. split; [eapply okr_keeps; [exact KP|exact C1]|]. split; [eapply okr_keeps; [exact KP|exact C2]|exact O'].
  - intros NG v y (vs & vk & SV & SK & AV & ->) PV AX. cbn [tabsd pd_val pd_refs] in *.
    pose proof (quiet _ _ _ _ _ _ _ NG AFC) as AF'.
    destruct (kept_tabs own q k h own h' _ v J AF' (tabs_okr _ _ _ _ _ _ _ A) AX PV) as [T T'].
    pose proof PV as PV0. apply forall2_last in PV. destruct PV as (v1 & vt & -> & _ & (_ & _ & P4)).
    apply forall2_last in T. destruct T as (v1' & vt' & EQ & T1 & (T2 & T3 & T4)). apply app_inj_tail in EQ. destruct EQ as [<- <-].
    rewrite EJ in P4, T4. apply forall2_last in P4. destruct P4 as (w1 & wx & EW & _ & (_ & _ & _ & PO)).
    rewrite EW in T4. apply forall2_last in T4. destruct T4 as (w1' & wx' & EQ & T5 & (T6 & T7 & T8 & T9)). apply app_inj_tail in EQ. destruct EQ as [<- <-].
    assert (AO : Forall (avoids h q) (j_ons x)).
    { rewrite flat_map_app in AX. apply Forall_app in AX. destruct AX as [_ AX]. rewrite one_refs in AX. inversion AX as [|? ? _ AX1]; subst. inversion AX1 as [|? ? _ AX2]; subst.
      rewrite EJ, flat_map_app in AX2. apply Forall_app in AX2. destruct AX2 as [_ AX2]. cbn [flat_map] in AX2. rewrite app_nil_r in AX2. inversion AX2 as [|? ? _ AX3]; subst. inversion AX3; assumption. }
    destruct (V NG (whole own q) (j_ons wx) (conds_where W KOn (j_ons wx) vs vk)) as (R1 & R2 & R3).
    + right. eauto.
    + eapply whole_fresh; eauto.
    + exists vs, vk. split; [exact SV|]. split; [exact SK|]. split; [apply kcalm_avoids; auto|reflexivity].
    + eapply forall2_impl; [|exact PO]. intros; apply view_cases; assumption.
    + apply oks_calm; auto.
    + unfold tables_on, on_last_table. rewrite upd_last_app. unfold table_on. rewrite EW, upd_last_app.
      destruct (conds_where W KOn (j_ons wx) vs vk) as [ons' oo]. cbn [fst snd] in *. subst oo.
      split; [|split; [reflexivity|]].
      * apply Forall2_app; [exact T1|]. constructor; [|constructor]. split; [exact T2|]. split; [exact T3|]. cbn [tb_joins].
        apply Forall2_app; [exact T5|]. constructor; [|constructor]. split; [exact T6|]. split; [exact T7|]. split; [exact T8|]. cbn [x' j_ons].
        eapply forall2_impl; [|exact R1]. intros a0 b0 E. apply stands_view. exact E.
      * rewrite flat_map_app in T' |- *. apply Forall_app in T'. destruct T' as [T'1 T'2]. apply Forall_app. split; [exact T'1|].
        rewrite one_refs in T'2 |- *. cbn [tb_name tb_alias tb_joins]. inversion T'2 as [|? ? U1 U2]; subst. inversion U2 as [|? ? U3 U4]; subst.
        constructor; [exact U1|]. constructor; [exact U3|]. rewrite EJ, flat_map_app in U4. rewrite flat_map_app. apply Forall_app in U4. destruct U4 as [U4 U5].
        apply Forall_app. split; [exact U4|]. cbn [flat_map] in U5 |- *. rewrite app_nil_r in *. unfold join_refs in *. inversion U5 as [|? ? U6 U7]; subst. inversion U7 as [|? ? U8 U9]; subst.
        cbn [x' j_name j_alias j_ons]. constructor; [exact U6|]. constructor; [exact U8|]. eapply calms_avoid; eauto.
Qed.
