(** Lemmas: on_duplicate_key_update on PostgreSQL. *)
From Coq Require Import Lia.
From Verif Require Import Base NumFmt Value Backend Eq Render ParseArgs Build Heap SpecHeap PfHeap PfHeapAlike PfHeapFrame PfHeapView HeapBuild SpecShare PfShare PfOwn PfParts PfNewItems PfMethods PfLayout PfOrders PfTables PfJoins PfCells.
Open Scope nat_scope.
Local Arguments view : simpl never.

(** Several new objects at once, referring to each other. *)
Lemma refers_news : forall h new x r, refers (h ++ new) x r -> refers h x r \/ (List.length h <= x /\ exists o a, In o new /\ In (a, r) (o_refs o)).
Proof.
  intros h new x r (k & l & a & G & I). unfold get in G. destruct (Nat.lt_ge_cases x (List.length h)) as [L|L].
  - left. rewrite nth_error_app1 in G by exact L. exists k, l, a. auto.
  - right. split; [exact L|]. rewrite nth_error_app2 in G by exact L. apply nth_error_In in G. exists (MkObj k l), a. auto.
Qed.
Definition new_ref (own : owner) (h : heap) (n : nat) (r : ref) : Prop := okr own h r \/ exists b, r = RPtr b /\ List.length h <= b < List.length h + n.
Lemma after_news : forall (G C : addr -> Prop) own h new, inv own h ->
  (forall o a r, In o new -> In (a, r) (o_refs o) -> new_ref own h (List.length new) r) -> after G C own h own (h ++ new).
Proof.
  intros G C own h new J R. assert (GO : forall p, p < List.length h -> get (h ++ new) p = get h p) by (intros p L; apply nth_error_app1; exact L).
  assert (KO : forall p k, kind_of h p = Some k -> kind_of (h ++ new) p = Some k).
  { intros p k K. pose proof (q_lt _ _ _ K) as L. unfold kind_of in *. rewrite GO by exact L. exact K. }
  split; [|split].
  - split; [rewrite app_length; lia|]. split; auto.
  - pose proof (fun p => fresh_own own h p J) as FR. destruct J as [CL O P NN]. split.
    + intros p b H. rewrite app_length. destruct (refers_news _ _ _ _ H) as [H'|(_ & o & a & Io & I)]; [specialize (CL _ _ H'); lia|].
      destruct (R _ _ _ Io I) as [X|(b' & E & X)]; [cbn in X; lia|injection E as <-; lia].
    + intros p q s E. destruct (O _ _ _ E) as (A & B & c & D). rewrite app_length. split; [lia|]. split; [exact B|]. exists c. apply KO. exact D.
    + intros x b q s H E. destruct (refers_news _ _ _ _ H) as [H'|(_ & o & a & Io & I)]; [eapply P; eauto|].
      destruct (R _ _ _ Io I) as [X|(b' & E' & X)]; [cbn in X; destruct X; congruence|]. injection E' as <-. rewrite FR in E by lia. discriminate.
    + intros p [q s] E. pose proof (NN _ _ E) as X. destruct (O _ _ _ E) as (L & _). unfold kind_of in *. rewrite GO by exact L. exact X.
  - intros p L. left. apply GO. exact L.
Qed.
Lemma reach_news : forall h new v r x, closed h -> valid h v ->
  (forall o a y, In o new -> In (a, y) (o_refs o) -> y = v \/ (exists b, y = RAtom b) \/ exists b, y = RPtr b /\ List.length h <= b) ->
  reach (h ++ new) r x -> (exists b, r = RPtr b /\ List.length h <= b) \/ reach h v r \/ (exists b, r = RAtom b) ->
  (exists b, x = RPtr b /\ List.length h <= b) \/ reach h v x \/ (exists b, x = RAtom b).
Proof.
  intros h new v r x CL V N R. induction R as [r|p r x Hr R IH]; intros D; [exact D|]. apply IH. clear IH R.
  destruct (refers_news _ _ _ _ Hr) as [H'|(L & o & a & Io & I)].
  - right. left. destruct D as [(b & E & L)|[D|(b & E)]]; [|eapply reach_trans; [exact D|]; eapply reach_step; [exact H'|apply reach_refl]|discriminate].
    exfalso. injection E as <-. apply refers_lt in H'. lia.
  - destruct (N _ _ _ Io I) as [->|[X|X]]; [right; left; apply reach_refl|right; right; exact X|left; exact X].
Qed.
Lemma str_atom : forall h r s, stands h r (VStr s) -> d_str r = Ok s.
Proof.
  intros h [a|p] s [n H]; destruct n as [|n]; try discriminate.
  - change (d_atom (RAtom a) = Ok (VStr s)) in H. unfold d_str. rewrite H. reflexivity.
  - exfalso. change (d_body h (decode h n) (RPtr p) = Ok (VStr s)) in H. unfold d_body in H. destruct (obj_at h (RPtr p)) as [o|]; [|discriminate]. cbn [bind] in H.
    destruct (o_kind o); try (unfold rmap in H; match type of H with (match ?x with _ => _ end) = _ => destruct x end; discriminate); try discriminate.
    apply inst_sql in H. discriminate.
Qed.

Definition conflictd (q : addr) (k : string) (p : addr) : partd (ref * list ref) (option str * list val) :=
  MkPartd (fun own h x => okr own h (fst x) /\ pd_at (condsd view q k COnConflict ", " [(LAttr "_on_conflict", fst x)] p) own h (snd x))
    (fun h x v => d_conflict h (fst x) = Ok (fst v) /\ pd_val (condsd view q k COnConflict ", " [(LAttr "_on_conflict", fst x)] p) h (snd x) (snd v))
    (fun x => fst x :: snd x).
Lemma good_conflict : forall q k p, good (conflictd q k p) q (key k).
Proof.
  intros q k p. split.
  - intros own h [r x] own' h' K F [A B]. split; [eapply okr_keeps; eauto|]. eapply (g_frame _ _ _ (good_conds _ view q k COnConflict ", " [(LAttr "_on_conflict", r)] p view_frame)); eauto.
  - intros own h [r x] [A B]. constructor; [exact A|]. exact (g_okr _ _ _ (good_conds _ view q k COnConflict ", " [(LAttr "_on_conflict", r)] p view_frame) _ _ _ B).
  - intros own h h' [r x] [c v] [A B] C VA F [P Q]. cbn [conflictd pd_refs fst snd] in *. inversion VA; subst. split.
    + eapply conflict_frame; eauto. intros p0. apply F. left. reflexivity.
    + eapply (g_val _ _ _ (good_conds _ view q k COnConflict ", " [(LAttr "_on_conflict", r)] p view_frame) own h); eauto. intros r0 p0 I. apply F. right. exact I.
Qed.
Lemma new_reference_spec : forall (G C : addr -> Prop) own h v, inv own h -> okr own h v -> exists h1, new_reference v h = (h1, Ok (List.length h)) /\
  after G C own h own h1 /\ okr own h1 (RPtr (List.length h)) /\ (forall s, d_str v = Ok s -> d_conflict h1 (RPtr (List.length h)) = Ok (Some s)) /\
  (forall q, q < List.length h -> avoids h q v -> avoids h1 q (RPtr (List.length h))).
Proof.
  intros G C own h v J OV. unfold new_reference. set (p := List.length h).
  match goal with |- context [h ++ ?x] => set (new := x) end. exists (h ++ new). split; [reflexivity|].
  assert (R : forall o a y, In o new -> In (a, y) (o_refs o) -> y = v \/ (exists b, y = RAtom b) \/ exists b, y = RPtr b /\ p <= b < p + 6).
  { intros o a y Io I. unfold new in Io.
    repeat (destruct Io as [<-|Io]; [cbn in I; repeat (destruct I as [I|I]; [injection I as <- <-;
      first [left; reflexivity|right; left; eexists; reflexivity|right; right; eexists; split; [reflexivity|lia]]|]); contradiction|]). contradiction. }
  assert (AF : after G C own h own (h ++ new)).
  { apply after_news; [exact J|]. intros o a y Io I. destruct (R _ _ _ Io I) as [->|[(b & ->)|(b & -> & L)]]; [left; exact OV|left; exact Logic.I|right; exists b; split; [reflexivity|exact L]]. }
  assert (GN : forall i, get (h ++ new) (p + i) = nth_error new i).
  { intros i. unfold get. rewrite nth_error_app2 by (unfold p; lia). f_equal. unfold p. lia. }
  assert (G0 : get (h ++ new) p = nth_error new 0) by (rewrite <- GN; f_equal; lia).
  split; [exact AF|]. split; [|split].
  - split; [rewrite app_length; cbn; lia|]. apply (fresh_own own h); [exact J|]. unfold p. lia.
  - intros s E. unfold d_conflict, self_bound, refs_at, attr, obj_at. rewrite G0. cbn. rewrite (GN 1). cbn.
    unfold bound_to, refs_at, obj_at, same_inst, kind_of. cbn. rewrite (GN 2), (GN 3), (GN 4), (GN 5). cbn. rewrite G0. cbn. rewrite Nat.eqb_refl. cbn. rewrite E. reflexivity.
  - intros q L AV Y. destruct (reach_news h new v (RPtr p) (RPtr q) (in_closed _ _ J) (okr_valid _ _ _ OV)) as [(b & E & LB)|[X|(b & E)]].
    + intros o a y Io I. destruct (R _ _ _ Io I) as [X|[X|(b & X & LB)]]; [auto|auto|right; right; exists b; split; [exact X|unfold p in LB; lia]].
    + exact Y.
    + left. exists p. split; [reflexivity|unfold p; lia].
    + injection E as <-. lia.
    + exact (AV X).
    + discriminate.
Qed.
Lemma h_conflict_spec : forall W (G : addr -> Prop) q k cq p own h x args kwds h' o, inv own h -> kind_of h q = Some (OInst cq) -> usable own h G ->
  pd_at (conflictd q k p) own h x -> kokr own h args kwds -> kgin G h args kwds -> h_conflict W (RPtr p) args kwds h = (h', o) ->
  acts (conflictd q k p) G (fun own => cell own q k) q own h x h' o (fun v y => exists vs vk, Forall2 (stands h) args vs /\ Forall2 (kw_stands h) kwds vk /\
    kavoids h q args kwds /\ y = conflict_set W v vs vk).
Proof.
  intros W G q k cq p own h [r x] args kwds h' o J KQ U PA [OA OK] [GA GK] R. unfold h_conflict in R. destruct args as [|a rest].
  { injection R as <- <-. apply acts_same; auto. intros _ v y (vs & vk & S & _ & _ & ->) _. inversion S; subst. reflexivity. }
  unfold hbind at 1, look at 1 in R. destruct (view h a) as [va|e] eqn:VA.
  2: { injection R as <- <-. apply acts_same; auto. intros _ v y (vs & vk & S & _) _. inversion S; subst. apply stands_view in H1. congruence. }
  assert (ST : (exists s, va = VStr s) \/ (forall s, va <> VStr s)) by (destruct va; eauto; right; discriminate).
  destruct ST as [(s & ->)|NS].
  2: { assert (h' = h /\ o = Err EInvalidQuery) as [-> ->] by (destruct va; try (exfalso; eapply NS; reflexivity); injection R as <- <-; auto).
       apply acts_same; auto. intros _ v y (vs & vk & S & _ & _ & ->) _. inversion S as [|? va' ? ? Sa]; subst. apply stands_view in Sa. rewrite VA in Sa. injection Sa as <-.
       destruct va; try reflexivity. exfalso. eapply NS. reflexivity. }
  pose proof (proj2 (stands_view h a (VStr s)) VA) as SA. inversion OA as [|? ? Oa Or]; subst. inversion GA as [|? ? Ga Gr]; subst.
  destruct (new_reference_spec G nothing own h a J Oa) as (h1 & E1 & A1 & O1 & D1 & AV1). unfold hbind at 1 in R. rewrite E1 in R.
  pose proof (inv_after _ _ _ _ _ _ A1) as J1. destruct PA as [Okr (l & (P & OP & OL) & OI)]. cbn [fst snd] in *.
  assert (F1 : forall y, y < List.length h -> get h1 y = get h y).
  { intros y L. unfold new_reference in E1. injection E1 as <-. apply nth_error_app1. exact L. }
  assert (LP : p < List.length h /\ l < List.length h) by (split; eapply owned_lt; eauto). destruct LP as [LP LL].
  set (m := List.length h) in *.
  destruct P as [P1 P2]. unfold hbind at 1 in R. unfold assign in R. unfold change in R at 1. rewrite F1, P1 in R by exact LP.
  cbn [set_attr String.eqb Ascii.eqb Bool.eqb] in R.
  set (o1 := MkObj (OInst COnConflict) [(LAttr "_parts", RPtr l); (LAttr "_on_conflict", RPtr m)]) in *. set (h2 := put h1 p o1) in *.
  assert (NE : p <> l) by (intros ->; rewrite P1 in P2; discriminate).
  assert (A2 : after G (cell own q k) own h1 own h2).
  { eapply after_write; [exact J1|rewrite F1 by exact LP; exact P1|right; exists PPart; exact OP|]. intros b y I. cbn in I. destruct I as [I|[I|[]]]; injection I as <- <-; [|left; exact O1].
    right. exists q. split; [|right; eexists; exact OP]. split; [destruct A1 as ((LL1 & _) & _); lia|]. rewrite OL. reflexivity. }
  assert (A12 : after G (cell own q k) own h own h2). { eapply after_cells; [|exact A2]. eapply after_more; [| |exact A1]; [auto|intros ? []]. }
  pose proof (inv_after _ _ _ _ _ _ A2) as J2.
  assert (P' : parts_at h2 COnConflict ", " [(LAttr "_on_conflict", RPtr m)] p l x).
  { split; [apply get_put_same; destruct A1 as ((LL1 & _) & _); lia|]. unfold h2. rewrite get_put_other by (intros E; apply NE; auto). rewrite F1 by exact LL. exact P2. }
  assert (F2 : forall y, y < m -> y <> p -> get h2 y = get h y). { intros y L N. unfold h2. rewrite get_put_other by exact N. apply F1. exact L. }
  assert (OKr : forall z, okr own h z -> okr own h2 z) by (intros z; apply okr_keeps; apply A12).
  assert (NP : forall z y, okr own h z -> avoids h q z -> reach h z (RPtr y) -> y < m /\ y <> p).
  { intros z y Oz Av Y. split; [exact (reach_valid _ _ _ (in_closed _ _ J) Y (okr_valid _ _ _ Oz))|]. intros ->.
    apply (proj2 (avoids_calm _ _ _ _ J Oz Av p Y)). right. eexists. exact OP. }
  assert (GI : forall z, okr own h z -> gin G h z -> gin G h2 z).
  { intros z Oz GG y Y KY. destruct (Nat.lt_ge_cases y m) as [L|L].
    - assert (X : reach h z (RPtr y) \/ m <= y).
      { assert (X : forall z x, reach h2 z x -> (reach h z z -> True) -> forall z0, (reach h z0 z \/ (exists b, z = RPtr b /\ m <= b) \/ exists b, z = RAtom b) ->
           reach h z0 x \/ (exists b, x = RPtr b /\ m <= b) \/ exists b, x = RAtom b).
        { clear - F1 P1 NE E1 SA LL. intros z x R. induction R as [z|b z x Hr R IH]; intros _ z0 D; [exact D|]. apply IH; [auto|]. clear IH R.
          destruct Hr as (k0 & l0 & c & Gb & I). unfold h2 in Gb. destruct (Nat.eq_dec b p) as [->|N].
          - assert (LP1 : p < List.length h1) by (destruct (Nat.lt_ge_cases p (List.length h1)) as [Z|Z]; [exact Z|]; exfalso; apply get_lt in Gb; rewrite put_length in Gb; lia).
            rewrite get_put_same in Gb by exact LP1. injection Gb as <- <-. destruct I as [I|[I|[]]]; injection I as <- <-.
            + destruct D as [D|[(b & E & L)|(b & E)]]; [|injection E as <-; exfalso; apply get_lt in P1; unfold m in L; lia|discriminate].
              left. eapply reach_trans; [exact D|]. eapply reach_step; [|apply reach_refl]. eexists _, _, _. split; [exact P1|left; reflexivity].
            + right. left. exists m. auto.
          - rewrite get_put_other in Gb by exact N. unfold new_reference in E1. injection E1 as <-.
            destruct (refers_news h _ b z (ex_intro _ k0 (ex_intro _ l0 (ex_intro _ c (Logic.conj Gb I))))) as [H'|(L & o & c' & Io & I')].
            + destruct D as [D|[(b' & E & L)|(b' & E)]]; [|injection E as <-; exfalso; apply refers_lt in H'; unfold m in L; lia|discriminate].
              left. eapply reach_trans; [exact D|]. eapply reach_step; [exact H'|apply reach_refl].
            + right. apply str_atom in SA. destruct a as [a|a]; [|discriminate].
              repeat (destruct Io as [<-|Io]; [cbn in I'; repeat (destruct I' as [I'|I']; [injection I' as <- <-;
                first [left; eexists; split; [reflexivity|unfold m; lia]|right; eexists; reflexivity]|]); contradiction|]). contradiction. }
        destruct (X z (RPtr y) Y (fun _ => Logic.I) z (or_introl (reach_refl _ _))) as [Z|[(b & E & Z)|(b & E)]]; [left; exact Z|injection E as <-; right; exact Z|discriminate]. }
      destruct X as [X|X]; [|lia]. apply GG; [exact X|]. unfold kind_of in *. destruct (Nat.eq_dec y p) as [->|N].
      + exfalso. destruct P' as [P' _]. rewrite P' in KY. discriminate.
      + rewrite F2 in KY by assumption. exact KY.
    - exfalso. unfold kind_of, h2 in KY. rewrite get_put_other in KY by lia. unfold new_reference in E1. injection E1 as <-. unfold get in KY. rewrite nth_error_app2 in KY by exact L.
      match type of KY with context [nth_error ?a ?b] => destruct (nth_error a b) eqn:NE1; [|discriminate] end. apply nth_error_In in NE1.
      repeat (destruct NE1 as [<-|NE1]; [discriminate|]). contradiction. }
  assert (AF2 : (forall y, ~ G y) -> after nothing (whole own q) own h own h2).
  { intros NG. eapply after_more; [| |exact A12]; [intros z Z; exact (NG z Z)|apply whole_cell]. }
  assert (NGp : ~ G p) by (intros Z; exact (usable_own _ _ _ _ _ U OP Z)). assert (NGl : ~ G l) by (intros Z; exact (usable_own _ _ _ _ _ U OL Z)).
  assert (OI2 : Forall (okr own h2) x) by (eapply Forall_impl; [|exact OI]; auto).
  assert (KO2 : kokr own h2 rest kwds). { split; [eapply Forall_impl; [|exact Or]; auto|eapply Forall_impl; [|exact OK]; cbn; auto]. }
  assert (KG2 : kgin G h2 rest kwds). { split; rewrite Forall_forall in *; intros z I; apply GI; auto. }
  pose proof (h_set_spec W G own COnConflict ", " [(LAttr "_on_conflict", RPtr m)] p l h2 x rest kwds h' o NGp NGl J2 P' OI2 KO2 KG2 R) as AD.
  apply (added_acts _ view G own q k cq) in AD; auto.
  2: { apply A12. exact KQ. } 2: { split; auto. }
  destruct AD as (own3 & x3 & A3 & P3 & V3). exists own3, (RPtr m, x3). split; [eapply after_cells; [exact A12|exact A3]|]. split.
  - split; [|exact P3]. eapply okr_keeps; [eapply keeps_trans; [apply A2|apply A3]|exact O1].
  - intros NG [c v] y (vs & vk & SV & SK & [AVA AVK] & ->) [PV1 PV2] AX. cbn [conflictd fst snd pd_val pd_refs] in *. specialize (AF2 NG).
    inversion SV as [|? v0 ? vr Sa Sr]; subst. apply stands_view in Sa. rewrite VA in Sa. injection Sa as <-. inversion AVA as [|? ? Ava Avr]; subst. inversion AX as [|? ? AXr AXx]; subst.
    assert (KS : forall z, okr own h z -> avoids h q z -> avoids h2 q z) by (intros z Oz Az; apply (kept_whole own q h own h2 z); auto).
    assert (KT : forall z w, okr own h z -> avoids h q z -> stands h z w -> stands h2 z w).
    { intros z w Oz Az. apply frame_stands; [apply J|eapply okr_valid; eauto|apply (kept_whole own q h own h2 z); auto]. }
    destruct (V3 NG v (values_set W v vr vk)) as (R1 & R2 & R3).
    + exists vr, vk. split; [|split; [|split; [|reflexivity]]].
      * clear - Sr Or Avr KT. induction Sr; constructor; inversion Or; inversion Avr; subst; auto.
      * clear - SK OK AVK KT. induction SK as [|b c kw vk [E S] SK IH]; constructor; inversion OK; inversion AVK; subst; auto. split; auto.
      * apply kcalm_avoids; [exact J2|exact KO2|]. split.
        -- clear - Or Avr KS. induction Or; constructor; inversion Avr; subst; auto.
        -- clear - OK AVK KS. induction OK; constructor; inversion AVK; subst; auto.
    + cbn [condsd pd_val] in PV2 |- *. clear - PV2 OI AXx J AF2. induction PV2 as [|z w x v E PV2 IH]; constructor; inversion OI; inversion AXx; subst; [|auto].
      eapply view_frame; [apply J|eapply okr_valid; eauto|apply (kept_whole own q h own h2 z); auto|exact E].
    + clear - OI AXx KS. induction OI; constructor; inversion AXx; subst; auto.
    + assert (RM : avoids h' q (RPtr m) /\ d_conflict h' (RPtr m) = Ok (Some s)).
      { assert (AV2 : avoids h1 q (RPtr m)) by (apply AV1; [apply q_lt in KQ; exact KQ|exact Ava]).
        assert (AF13 : after nothing (whole own q) own h1 own3 h'). { eapply after_more; [| |eapply after_cells; [exact A2|exact A3]]; [intros z Z; exact (NG z Z)|apply whole_cell]. }
        destruct (kept_whole own q h1 own3 h' (RPtr m) J1 AF13 O1 AV2) as [K1 K2]. split; [exact K2|].
        eapply conflict_frame; [apply J1|apply O1|exact K1|]. apply D1. eapply str_atom. exact SA. }
      unfold conflict_set. cbn [snd]. destruct (values_set W v vr vk) as [ps o3]. cbn [fst snd] in *. split; [split; [apply RM|exact R1]|]. split; [exact R2|]. constructor; [apply RM|exact R3].
Qed.
