(** Lemmas: the conditions, columns and values a method creates. *)
From Coq Require Import Lia.
From Verif Require Import Base NumFmt Value Backend Eq Render ParseArgs Build Heap SpecHeap PfHeap PfHeapAlike PfHeapFrame PfHeapView HeapBuild SpecShare PfShare PfOwn PfParts.
Open Scope nat_scope.

(** ** Sets of references closed under taking elements *)
Record elements (P : ref -> Prop) (h : heap) : Prop := {
  el_atom : forall a, P (RAtom a);
  el_part : forall p k l a r, P (RPtr p) -> get h p = Some (MkObj k l) -> (forall c, k <> OInst c) -> In (a, r) l -> P r }.
Lemma items_in : forall l r, In r (items_of l) -> exists a, In (a, r) l.
Proof.
  induction l as [|[a x] l IH]; intros r H; [contradiction|]. destruct a; cbn in H; try (destruct (IH _ H) as [b B]; exists b; right; exact B).
  destruct H as [->|H]; [eexists; left; reflexivity|]. destruct (IH _ H) as [b B]. exists b. right. exact B.
Qed.
Lemma pairs_in : forall l a b, In (a, b) (pairs_of l) -> (exists x, In (x, a) l) /\ exists y, In (y, b) l.
Proof.
  assert (X : forall n l, List.length l <= n -> forall a b, In (a, b) (pairs_of l) -> (exists x, In (x, a) l) /\ exists y, In (y, b) l).
  { induction n as [|n IH]; intros [|[x1 r1] l] L a b H; cbn in L; try lia; try contradiction.
    destruct x1; cbn in H; try contradiction. destruct l as [|[x2 r2] l]; [contradiction|]. destruct x2; try contradiction.
    destruct H as [E|H].
    - injection E as <- <-. split; [exists LKey; left; reflexivity|exists LVal; right; left; reflexivity].
    - destruct (IH l ltac:(cbn in L; lia) a b H) as [[x X] [y Y]]. split; [exists x|exists y]; right; right; assumption. }
  intros l. apply (X (List.length l)). lia.
Qed.
Section Elements.
  Variables (P : ref -> Prop) (h : heap).
  Hypothesis E : elements P h.
  Lemma el_seq : forall r rs, P r -> seq_at h r = Some rs -> Forall P rs.
  Proof.
    intros [a|p] rs HP S; [discriminate|]. cbn in S. destruct (get h p) as [[k l]|] eqn:G; [|discriminate].
    apply Forall_forall. intros x I. destruct k; try discriminate; injection S as <-; apply items_in in I; destruct I as [a I];
    eapply (el_part _ _ E); eauto; intros c; discriminate.
  Qed.
  Lemma el_dict : forall r rs, P r -> dict_at h r = Some rs -> Forall (fun x => P (fst x) /\ P (snd x)) rs.
  Proof.
    intros [a|p] rs HP S; [discriminate|]. cbn in S. destruct (get h p) as [[k l]|] eqn:G; [|discriminate].
    apply Forall_forall. intros [x y] I. destruct k; try discriminate. injection S as <-. apply pairs_in in I. destruct I as [[a I] [b I']].
    split; eapply (el_part _ _ E); eauto; intros c; discriminate.
  Qed.
  Lemma el_list_of : forall r rs h1, P r -> list_of r h = (h1, Ok (Some rs)) -> Forall P rs.
  Proof.
    intros [[v|s|s]|p] rs h1 HP S; cbn in S; try discriminate.
    - injection S as _ S. apply Forall_forall. intros x I. destruct (py_list v); [|discriminate]. injection S as <-.
      apply in_map_iff in I. destruct I as (y & <- & _). apply (el_atom _ _ E).
    - destruct (get h p) as [[k l]|] eqn:G; [|discriminate].
      apply Forall_forall. intros x I.
      destruct k; try discriminate; injection S as _ <-;
      try (apply items_in in I; destruct I as [a I]; eapply (el_part _ _ E); eauto; intros c; discriminate).
      apply in_map_iff in I. destruct I as ([y z] & <- & I). apply pairs_in in I. destruct I as [[a I] _].
      eapply (el_part _ _ E); eauto; intros c; discriminate.
  Qed.
  Lemma el_batch : forall o rs b, Forall P rs -> r_create_batch o rs = Ok b -> Forall P b.
  Proof.
    intros o rs b F B. unfold r_create_batch in B. destruct (Nat.ltb _ _); [discriminate|]. injection B as <-.
    apply Forall_app. split; [exact F|]. apply Forall_forall. intros x I. apply repeat_spec in I. subst. apply (el_atom _ _ E).
  Qed.
  Lemma el_item : forall o r b, P r -> r_parse_list_item h o r = Ok b -> Forall P b.
  Proof.
    intros o r b HP B. unfold r_parse_list_item in B. destruct (seq_at h r) eqn:S.
    - eapply el_batch; [|exact B]. eapply el_seq; eauto.
    - destruct (Nat.eqb _ _); [|discriminate]. eapply el_batch; [|exact B]. auto.
  Qed.
  Lemma el_mapM : forall A (f : A -> res (list ref)) (Q : A -> Prop) l bs, Forall Q l -> (forall a b, Q a -> f a = Ok b -> Forall P b) ->
    mapM f l = Ok bs -> Forall (Forall P) bs.
  Proof.
    intros A f Q l bs F H M. apply mapM_forall2 in M. induction M; inversion F; subst; constructor; eauto.
  Qed.
  Lemma el_items : forall o rs bs, Forall (fun x => P (fst x) /\ P (snd x)) rs -> r_parse_items o rs = Ok bs -> Forall (Forall P) bs.
  Proof.
    intros o rs bs F M. eapply el_mapM; [exact F| |exact M]. intros [a b] bb [A B] C. eapply el_batch; [|exact C]. repeat constructor; assumption.
  Qed.
  Lemma osort_in : forall A (lt : A -> A -> bool) l x, In x (osort lt l) -> In x l.
  Proof.
    intros A lt.
    assert (I : forall y l x, In x (oinsert lt y l) -> x = y \/ In x l).
    { intros y l. induction l as [|z l IH]; intros x H; cbn in H; [destruct H as [<-|[]]; auto|].
      destruct (lt z y); cbn in H; destruct H as [<-|H]; auto; try (right; left; reflexivity).
      destruct (IH _ H); auto. right; right; assumption. }
    intros l. induction l as [|y l IH]; intros x H; [contradiction|]. cbn in H. apply I in H. destruct H as [->|H]; [left; reflexivity|right; auto].
  Qed.
  Lemma el_sort_items : forall W rs s, Forall (fun x => P (fst x) /\ P (snd x)) rs -> r_sort_items W h rs = Ok s ->
    Forall (fun x => P (fst x) /\ P (snd x)) s.
  Proof.
    intros W rs s F S. unfold r_sort_items in S. destruct rs as [|x [|y rs]]; [injection S as <-; exact F|injection S as <-; exact F|].
    set (RS := x :: y :: rs) in *. clearbody RS. destruct (mapM _ RS) as [ks|]; [|discriminate]. cbn [bind] in S.
    destruct (_ || _); [discriminate|]. destruct (_ || _); [|discriminate]. injection S as <-.
    apply Forall_forall. intros z I. apply in_map_iff in I. destruct I as ([k w] & <- & I). apply osort_in in I.
    apply in_combine_r in I. rewrite Forall_forall in F. apply F. exact I.
  Qed.
  Lemma el_kwds : forall k, Forall (fun x => P (snd x)) k -> Forall (fun x => P (fst x) /\ P (snd x)) (r_sort_kwds k).
  Proof.
    intros k F. unfold r_sort_kwds. apply Forall_forall. intros z I. apply in_map_iff in I. destruct I as ([a b] & <- & I).
    apply osort_in in I. rewrite Forall_forall in F. specialize (F _ I). cbn in *. split; [apply (el_atom _ _ E)|exact F].
  Qed.
  Lemma el_parse : forall W o args k its, Forall P args -> Forall (fun x => P (snd x)) k ->
    r_parse_args W h o args k = Ok its -> Forall (Forall P) its.
  Proof.
    intros W o args k its FA FK R. unfold r_parse_args in R. cbn [bind] in R.
    match type of R with bind ?x _ = _ => destruct x as [first|] eqn:F1; [|discriminate] end. cbn [bind] in R.
    match type of R with bind ?x _ = _ => destruct x as [second|] eqn:F2; [|discriminate] end. cbn [bind] in R. injection R as <-.
    apply Forall_app. split.
    - destruct args as [|a rest]; [injection F1 as <-; constructor|].
      destruct (_ && _).
      + destruct (r_create_batch o (a :: rest)) eqn:B; [|discriminate]. injection F1 as <-. constructor; [|constructor].
        eapply el_batch; eauto.
      + assert (M : forall l bs, Forall P l -> mapM (r_parse_list_item h o) l = Ok bs -> Forall (Forall P) bs).
        { intros l bs FL ML. eapply el_mapM; [exact FL| |exact ML]. intros; eapply el_item; eauto. }
        inversion FA; subst.
        destruct (seq_at h a) as [x|] eqn:S; destruct (dict_at h a) as [y|] eqn:D; destruct rest; try destruct (p_list o);
        try (injection F1 as <-; constructor); eapply M; try exact F1; auto; eapply el_seq; eauto.
    - destruct (match args with [a] => dict_at h a | _ => None end) as [x|] eqn:D.
      + destruct (p_dict o); [|discriminate]. destruct (r_sort_items W h x) eqn:S; [|discriminate]. cbn [bind] in F2.
        eapply el_items; [|exact F2]. eapply el_sort_items; [|exact S].
        destruct args as [|r0 [|]]; try discriminate. inversion FA; subst. eapply el_dict; eauto.
      + destruct k; [injection F2 as <-; constructor|]. destruct (p_dict o); [|discriminate].
        eapply el_items; [|exact F2]. apply el_kwds. exact FK.
  Qed.
End Elements.
Lemma okr_elements : forall own h, inv own h -> elements (okr own h) h.
Proof.
  intros own h J. split; [intros a; exact Logic.I|]. intros p k l a [|b] OP G NI I; [exact Logic.I|].
  assert (R : refers h p (RPtr b)) by (exists k, l, a; auto).
  cbn in *. split; [eapply (in_closed _ _ J); eauto|]. destruct (own b) as [[q s]|] eqn:E; [|reflexivity]. exfalso.
  destruct (in_priv _ _ J _ _ _ _ R E) as [->|[s' X]]; [|destruct OP; congruence].
  destruct (in_own _ _ J _ _ _ E) as (_ & _ & c & K). unfold kind_of in K. rewrite G in K. injection K as K. exact (NI c K).
Qed.
(** Generators that can be reached. *)
Definition gin (G : addr -> Prop) (h : heap) (r : ref) : Prop := forall p, reach h r (RPtr p) -> kind_of h p = Some OGen -> G p.
Lemma gin_gdir : forall G h r, gin G h r -> gdir G h r.
Proof. intros G h r H p ->. apply H. apply reach_refl. Qed.
Lemma gin_elements : forall G h, elements (gin G h) h.
Proof.
  intros G h. split.
  - intros a p R. apply reach_atom in R. discriminate.
  - intros p k l a r HP GP _ I x R. apply HP. eapply reach_step; [|exact R]. exists k, l, a. auto.
Qed.
Lemma calm_elements : forall G C h, elements (calm G C h) h.
Proof.
  intros G C h. split.
  - intros a. apply calm_atom.
  - intros p k l a r HP GP _ I x R. apply HP. eapply reach_step; [|exact R]. exists k, l, a. auto.
Qed.

(** ** Running code *)
Lemma hbind_inv : forall A B (m : hm A) (f : A -> hm B) h h' o, hbind m f h = (h', o) ->
  exists h1 r, m h = (h1, r) /\ match r with Ok x => f x h1 = (h', o) | Err e => h' = h1 /\ o = Err e end.
Proof.
  intros A B m f h h' o H. unfold hbind in H. destruct (m h) as [h1 [x|e]]; exists h1; eexists; (split; [reflexivity|]); [exact H|].
  injection H as <- <-. auto.
Qed.
Lemma forall2_impl : forall A B (R T : A -> B -> Prop) l l', (forall a b, R a b -> T a b) -> Forall2 R l l' -> Forall2 T l l'.
Proof. intros A B R T l l' H F. induction F; constructor; auto. Qed.
(** Growing heaps. *)
Lemma stands_app : forall h x r v, closed h -> stands h r v -> stands (h ++ [x]) r v.
Proof.
  intros h x r v C S. pose proof (stands_valid _ _ _ S) as V. eapply stands_frame; [exact C|exact V| |exact S].
  intros p R. apply get_old. exact (reach_valid _ _ _ C R V).
Qed.
Lemma calm_app : forall G C h x r, closed h -> valid h r -> calm G C h r -> calm G C (h ++ [x]) r.
Proof.
  intros G C h x r CL V CA p R. apply CA. eapply reach_frame; [|exact R]. intros y Y. apply get_old. exact (reach_valid _ _ _ CL Y V).
Qed.

(** ** Objects and their values *)
Ltac at_obj G := unfold attr, refs_at, obj_at; rewrite ?G; cbn.
Local Arguments view : simpl never.
Lemma body_stands : forall h r v, d_body h (view h) r = Ok v -> stands h r v.
Proof. intros h r v H. exists (S (S (List.length h))). exact H. Qed.
Lemma stands_list : forall h p rs vs, get h p = Some (MkObj OList (map item rs)) -> Forall2 (stands h) rs vs ->
  stands h (RPtr p) (VSeq KList vs).
Proof.
  intros h p rs vs G F. apply body_stands. unfold d_body, obj_at. rewrite G. cbn [bind o_kind o_refs].
  rewrite items_item. apply views in F. rewrite F. reflexivity.
Qed.
Lemma stands_rel : forall h p k r v, get h p = Some (MkObj (OInst (CRelation k)) [(LAttr "_value", r)]) -> stands h r v ->
  stands h (RPtr p) (VRel k v).
Proof.
  intros h p k r v G S. apply stands_view in S. apply body_stands. unfold d_body, obj_at. rewrite G.
  cbn [bind o_kind d_inst]. unfold attr, obj_at. rewrite G. cbn [bind o_refs find_attr]. cbn [String.eqb Ascii.eqb Bool.eqb].
  cbn [bind]. rewrite S. reflexivity.
Qed.
Lemma stands_cond : forall h p kk c x vc k v, get h p = Some (MkObj (OInst (cond_cls kk)) [(LAttr "_column_name", c); (LAttr "_value", x)]) ->
  stands h c vc -> stands h x (VRel k v) -> (kk = KWhere \/ kk = KOn) -> stands h (RPtr p) (VCond kk vc k v).
Proof.
  intros h p kk c x vc k v G SC SX HK. apply stands_view in SC, SX. apply body_stands. unfold d_body, obj_at. rewrite G.
  cbn [bind o_kind].
  destruct HK as [-> | ->]; cbn [d_inst cond_cls]; unfold d_condition, attr, obj_at; rewrite G; cbn; rewrite SC; cbn; rewrite SX; reflexivity.
Qed.
Lemma stands_value : forall h p c x vc v, get h p = Some (MkObj (OInst CValue) [(LAttr "_column_name", c); (LAttr "_value", x)]) ->
  stands h c vc -> stands h x v -> stands h (RPtr p) (VValue vc v).
Proof.
  intros h p c x vc v G SC SX. apply stands_view in SC, SX. apply body_stands. unfold d_body, obj_at. rewrite G.
  cbn [bind o_kind].
  cbn [d_inst]; unfold attr, obj_at; rewrite G; cbn; rewrite SC; cbn; rewrite SX; reflexivity.
Qed.
(** list(value) *)
Lemma atom_list : forall h v l, immutable v = true -> py_list v = Some l -> Forall2 (stands h) (map av l) l.
Proof.
  intros h v l I L.
  assert (X : Forall (fun x => immutable x = true) l).
  { destruct v; try discriminate; cbn in L; injection L as <-.
    - apply Forall_forall. intros x H. apply in_map_iff in H. destruct H as (y & <- & _). reflexivity.
    - apply Forall_forall. intros x H. apply in_map_iff in H. destruct H as (y & <- & _). reflexivity.
    - destruct k; try discriminate. cbn in I. rewrite forallb_forall in I. apply Forall_forall. intros x H. specialize (I x H).
      destruct x; try discriminate. reflexivity. }
  clear L I. induction X; cbn; constructor; auto. apply stands_atom. assumption.
Qed.
Lemma list_of_stands : forall h r v, stands h r v -> gdir nothing h r ->
  exists o, list_of r h = (h, Ok o) /\
    match py_list v with Some l => exists rs, o = Some rs /\ Forall2 (stands h) rs l | None => o = None end.
Proof.
  intros h r v [[|n] H] ND; [discriminate|]. cbn [decode] in H. destruct r as [a|p].
  - destruct a as [w|s|s]; cbn in H; try discriminate. destruct (immutable w) eqn:I; [|discriminate]. injection H as <-.
    eexists. split; [reflexivity|]. destruct (py_list w) eqn:L; [|reflexivity]. eexists. split; [reflexivity|]. eapply atom_list; eauto.
  - unfold d_body, obj_at in H. destruct (get h p) as [[k l]|] eqn:G; [|discriminate]. cbn [bind o_kind o_refs] in H.
    assert (NG : k <> OGen). { intros ->. apply (ND p eq_refl). unfold kind_of. rewrite G. reflexivity. }
    cbn [list_of]. rewrite G.
    destruct k; cbn [rmap] in H; try discriminate; try (contradiction NG; reflexivity).
    1-5: destruct (mapM _ _) as [vs|e] eqn:M in H; cbn [rmap] in H; [|discriminate]; injection H as <-.
    1,3,4,5: apply forall2_decode in M; eexists; split; [reflexivity|]; cbn; eexists; split; [reflexivity|exact M].
    + apply forall2_pairs in M. eexists; split; [reflexivity|]. cbn. eexists; split; [reflexivity|].
      clear - M. induction M as [|x y rs vs [A _] M IH]; cbn; constructor; auto.
    + pose proof (inst_sql _ _ _ _ _ H) as S. eexists. split; [reflexivity|]. destruct v; try discriminate S; reflexivity.
Qed.

(** ** Relations and conditions *)
Lemma view_cases : forall h r v, stands h r v -> view h r = Ok v.
Proof. intros. apply stands_view. assumption. Qed.
Lemma list_of_spec : forall (G : addr -> Prop) own h r h1 o, inv own h -> okr own h r -> gdir G h r -> list_of r h = (h1, o) ->
  after G nothing own h own h1 /\ exists x, o = Ok x /\ match x with Some rs => Forall (okr own h1) rs | None => True end.
Proof.
  intros G own h r h1 o J OK GD L.
  assert (AF : after G nothing own h own h1).
  { destruct r as [[v|s|s]|p]; cbn in L; try (injection L as <- <-; apply after_refl; exact J).
    destruct (get h p) as [[k l]|] eqn:GP; [|injection L as <- <-; apply after_refl; exact J].
    destruct k; injection L as <- <-; try (apply after_refl; exact J).
    eapply after_write; [exact J|exact GP|left; apply (GD p eq_refl); unfold kind_of; rewrite GP; reflexivity|intros a r []]. }
  split; [exact AF|].
  assert (X : exists x, o = Ok x).
  { destruct r as [[v|s|s]|p]; cbn in L; try (injection L as <- <-; eauto).
    destruct (get h p) as [[k l]|]; [|injection L as <- <-; eauto]. destruct k; injection L as <- <-; eauto. }
  destruct X as [x ->]. exists x. split; [reflexivity|]. destruct x as [rs|]; [|exact Logic.I].
  eapply oks_keeps; [apply AF|]. eapply el_list_of; [apply okr_elements; exact J|exact OK|exact L].
Qed.
Lemma after_nil : forall (G C : addr -> Prop) own h own' h', after G nothing own h own' h' -> after G C own h own' h'.
Proof. intros G C own h own' h' A. eapply after_more; [| |exact A]; [auto|intros p []]. Qed.
Lemma new_rel_spec : forall (G : addr -> Prop) own h k r h1 o, inv own h -> okr own h r -> gdir G h r ->
  new_rel k r h = (h1, o) -> after G nothing own h own h1 /\ (forall p, o = Ok p -> okr own h1 (RPtr p)).
Proof.
  intros G own h k r h1 o J OK GD R. unfold new_rel in R.
  apply hbind_inv in R. destruct R as (h2 & o2 & R1 & R).
  assert (X : after G nothing own h own h2 /\ match o2 with Ok r' => okr own h2 r' | Err _ => False end).
  { assert (D : (h, Ok r) = (h2, o2) -> after G nothing own h own h2 /\ match o2 with Ok r' => okr own h2 r' | Err _ => False end).
    { intros [= <- <-]. split; [apply after_refl; exact J|exact OK]. }
    assert (L : (doh o <- list_of r; match o with Some l => doh p <- alloc OList (map (fun x => (LItem, x)) l); hret (RPtr p) | None => hret r end) h = (h2, o2) ->
      after G nothing own h own h2 /\ match o2 with Ok r' => okr own h2 r' | Err _ => False end).
    { intros R2. apply hbind_inv in R2. destruct R2 as (h3 & o3 & L & R2).
      destruct (list_of_spec G own h r h3 o3 J OK GD L) as (A3 & x & -> & OX). destruct x as [rs|].
      - unfold hbind, alloc, hret in R2. injection R2 as <- <-.
        destruct (after_alloc G nothing own h3 OList (map (fun x => (LItem, x)) rs) (inv_after _ _ _ _ _ _ A3)) as [A4 O4].
        { intros a x I. apply in_map_iff in I. destruct I as (y & [= <- <-] & I). rewrite Forall_forall in OX. apply OX. exact I. }
        split; [eapply after_trans; eauto|exact O4].
      - injection R2 as <- <-. split; [exact A3|eapply okr_keeps; [apply A3|exact OK]]. }
    destruct k; first [apply D; exact R1 | apply L; exact R1]. }
  destruct X as [A2 O2]. destruct o2 as [r'|e]; [|contradiction].
  apply hbind_inv in R. destruct R as (h3 & o3 & V & R). unfold look in V. injection V as <- <-.
  destruct (view h2 r') as [v|e]; [|destruct R as [-> ->]; split; [exact A2|discriminate]].
  apply hbind_inv in R. destruct R as (h3 & o3 & V & R). unfold check in V. injection V as <- <-.
  destruct (check_type _ v); [|destruct R as [-> ->]; split; [exact A2|discriminate]].
  unfold alloc in R. injection R as <- <-.
  destruct (after_alloc G nothing own h2 (OInst (CRelation k)) [(LAttr "_value", r')] (inv_after _ _ _ _ _ _ A2)) as [A4 O4].
  { intros a x [[= <- <-]|[]]. exact O2. }
  split; [eapply after_trans; eauto|]. intros p [= <-]. exact O4.
Qed.
Definition good_new (h h1 : heap) (its : list ref) (p : addr) : Prop :=
  forall C : addr -> Prop, Forall (calm nothing C h) its -> (forall y, List.length h <= y -> ~ C y) -> calm nothing C h1 (RPtr p).
Lemma new_rel_val : forall own h k r v h1 o, inv own h -> okr own h r -> gdir nothing h r -> new_rel k r h = (h1, o) -> stands h r v ->
  same_res (fun p x => stands h1 (RPtr p) x /\ good_new h h1 [r] p) o (mk_rel k v).
Proof.
  intros own h k r v h1 o J OK GD R SV. unfold new_rel in R.
  apply hbind_inv in R. destruct R as (h2 & o2 & R1 & R).
  set (v' := match k with RIn | RNotIn => match py_list v with Some l => VSeq KList l | None => v end | _ => v end).
  assert (X : closed h2 /\ List.length h <= List.length h2 /\ exists r', o2 = Ok r' /\ valid h2 r' /\ stands h2 r' v' /\
            forall C : addr -> Prop, Forall (calm nothing C h) [r] -> (forall y, List.length h <= y -> ~ C y) -> calm nothing C h2 r').
  { assert (D : (h, Ok r) = (h2, o2) -> v' = v -> closed h2 /\ List.length h <= List.length h2 /\ exists r', o2 = Ok r' /\ valid h2 r' /\ stands h2 r' v' /\
            forall C : addr -> Prop, Forall (calm nothing C h) [r] -> (forall y, List.length h <= y -> ~ C y) -> calm nothing C h2 r').
    { intros [= <- <-] ->. split; [apply J|]. split; [lia|]. exists r. split; [reflexivity|]. split; [eapply stands_valid; eauto|]. split; [exact SV|].
      intros C F _. inversion F; assumption. }
    assert (L : (doh o <- list_of r; match o with Some l => doh p <- alloc OList (map (fun x => (LItem, x)) l); hret (RPtr p) | None => hret r end) h = (h2, o2) ->
      v' = match py_list v with Some l => VSeq KList l | None => v end ->
      closed h2 /\ List.length h <= List.length h2 /\ exists r', o2 = Ok r' /\ valid h2 r' /\ stands h2 r' v' /\
            forall C : addr -> Prop, Forall (calm nothing C h) [r] -> (forall y, List.length h <= y -> ~ C y) -> calm nothing C h2 r').
    { intros R2 ->. destruct (list_of_stands h r v SV GD) as (x & EL & PL).
      unfold hbind in R2 at 1. rewrite EL in R2.
      destruct (py_list v) as [l|].
      - destruct PL as (rs & -> & F). unfold hbind, alloc, hret in R2. injection R2 as <- <-.
        assert (OR : Forall (okr own h) rs). { eapply el_list_of; [apply okr_elements; exact J|exact OK|exact EL]. }
        assert (VR : forall a x, In (a, x) (map (fun x => (LItem, x)) rs) -> okr own h x).
        { intros a x I. apply in_map_iff in I. destruct I as (y & [= <- <-] & I). rewrite Forall_forall in OR. apply OR. exact I. }
        destruct (after_alloc nothing nothing own h OList (map (fun x => (LItem, x)) rs) J VR) as [A4 O4].
        split; [apply (inv_after _ _ _ _ _ _ A4)|]. split; [rewrite app_len; lia|]. eexists. split; [reflexivity|].
        split; [cbn; rewrite app_len; lia|]. split.
        + eapply stands_list; [apply get_new|]. eapply forall2_impl; [|exact F]. intros; apply stands_app; [apply J|assumption].
        + intros C FC NC. apply calm_new; [apply J| |intros []|apply NC; lia].
          intros a x I. split; [eapply okr_valid; eapply VR; eauto|]. inversion FC as [|? ? CR _]; subst.
          apply in_map_iff in I. destruct I as (y & [= <- <-] & I).
          assert (Z : Forall (calm nothing C h) rs) by (eapply el_list_of; [apply calm_elements|exact CR|exact EL]).
          rewrite Forall_forall in Z. apply Z. exact I.
      - subst x. unfold hret in R2. injection R2 as <- <-. split; [apply J|]. split; [lia|]. exists r. split; [reflexivity|]. split; [eapply stands_valid; eauto|]. split; [exact SV|].
        intros C F _. inversion F; assumption. }
    destruct k; first [apply D; [exact R1|reflexivity] | apply L; [exact R1|reflexivity]]. }
  destruct X as (CL & LE & r' & -> & VR & SR & CR).
  unfold hbind in R at 1. unfold look in R. rewrite (view_cases _ _ _ SR) in R.
  unfold mk_rel. fold v'. unfold hbind, check in R. destruct (check_type _ v').
  - unfold alloc in R. injection R as <- <-. cbn. split.
    + eapply stands_rel; [apply get_new|]. apply stands_app; assumption.
    + intros C FC NC. apply calm_new; [exact CL| |intros []|apply NC; lia]. intros a x [[= <- <-]|[]]. split; [exact VR|]. apply CR; assumption.
  - injection R as <- <-. reflexivity.
Qed.
Lemma good_trans : forall h h1 h2 its p k l, closed h1 -> List.length h <= List.length h1 -> (forall a r, In (a, r) l -> valid h1 r /\
    forall C : addr -> Prop, Forall (calm nothing C h) its -> (forall y, List.length h <= y -> ~ C y) -> calm nothing C h1 r) ->
  h2 = h1 ++ [MkObj k l] -> p = List.length h1 -> good_new h h2 its p.
Proof.
  intros h h1 h2 its p k l CL LE R -> -> C FC NC. apply calm_new; [exact CL| |intros []|apply NC; lia].
  intros a r I. destruct (R _ _ I) as [V X]. split; [exact V|]. apply X; assumption.
Qed.
Lemma new_condition_spec : forall kk (G : addr -> Prop) own h c v h1 o, inv own h -> okr own h c -> okr own h v -> gdir G h v ->
  new_condition kk c v h = (h1, o) -> after G nothing own h own h1 /\ (forall p, o = Ok p -> okr own h1 (RPtr p)).
Proof.
  intros kk G own h c v h1 o J OC OV GD R. unfold new_condition in R.
  assert (Z : after G nothing own h own h /\ (forall p, @Err addr EUnmodelled = Ok p -> okr own h (RPtr p))) by (split; [apply after_refl; exact J|discriminate]).
  unfold hbind at 1, look at 1 in R. destruct (view h c) as [vc|]; [|injection R as <- <-; split; [apply Z|discriminate]].
  unfold hbind at 1, check at 1 in R. destruct (check_type [TStr] vc); [|injection R as <- <-; split; [apply Z|discriminate]].
  unfold hbind at 1, look at 1 in R. destruct (view h v) as [vv|]; [|injection R as <- <-; split; [apply Z|discriminate]].
  unfold hbind at 1, check at 1 in R. destruct (check_type cond_value_types vv); [|injection R as <- <-; split; [apply Z|discriminate]].
  apply hbind_inv in R. destruct R as (h2 & o2 & R1 & R).
  assert (X : after G nothing own h own h2 /\ forall r', o2 = Ok r' -> okr own h2 r').
  { assert (D : (h, Ok v) = (h2, o2) -> after G nothing own h own h2 /\ forall r', o2 = Ok r' -> okr own h2 r').
    { intros [= <- <-]. split; [apply Z|]. intros r' [= <-]. exact OV. }
    assert (N : (doh p <- new_rel (default_rel vv) v; hret (RPtr p)) h = (h2, o2) -> after G nothing own h own h2 /\ forall r', o2 = Ok r' -> okr own h2 r').
    { intros R2. apply hbind_inv in R2. destruct R2 as (h3 & o3 & L & R2).
      destruct (new_rel_spec G own h _ v h3 o3 J OV GD L) as (A3 & O3). destruct o3 as [p|e].
      - injection R2 as <- <-. split; [exact A3|]. intros r' [= <-]. apply O3. reflexivity.
      - destruct R2 as [-> ->]. split; [exact A3|discriminate]. }
    destruct vv; first [apply D; exact R1 | apply N; exact R1]. }
  destruct X as [A2 O2]. destruct o2 as [r'|e]; [|destruct R as [-> ->]; split; [exact A2|discriminate]].
  unfold alloc in R. injection R as <- <-.
  destruct (after_alloc G nothing own h2 (OInst (cond_cls kk)) [(LAttr "_column_name", c); (LAttr "_value", r')] (inv_after _ _ _ _ _ _ A2)) as [A4 O4].
  { intros a x [[= <- <-]|[[= <- <-]|[]]]; [eapply okr_keeps; [apply A2|exact OC]|apply O2; reflexivity]. }
  split; [eapply after_trans; eauto|]. intros p [= <-]. exact O4.
Qed.
Lemma new_condition_val : forall kk own h c v vc vv h1 o, (kk = KWhere \/ kk = KOn) -> inv own h -> okr own h c -> okr own h v -> gdir nothing h v ->
  new_condition kk c v h = (h1, o) -> stands h c vc -> stands h v vv ->
  same_res (fun p x => stands h1 (RPtr p) x /\ good_new h h1 [c; v] p) o (mk_condition kk vc vv).
Proof.
  intros kk own h c v vc vv h1 o HK J OC OV GD R SC SV. unfold new_condition in R. unfold mk_condition.
  unfold hbind at 1, look at 1 in R. rewrite (view_cases _ _ _ SC) in R.
  unfold hbind at 1, check at 1 in R. destruct (check_type [TStr] vc); [|injection R as <- <-; reflexivity].
  unfold hbind at 1, look at 1 in R. rewrite (view_cases _ _ _ SV) in R.
  unfold hbind at 1, check at 1 in R. destruct (check_type cond_value_types vv); [|injection R as <- <-; reflexivity].
  cbn [negb]. apply hbind_inv in R. destruct R as (h2 & o2 & R1 & R).
  assert (X : after nothing nothing own h own h2 /\ same_res (fun r' x => stands h2 r' x /\ (exists k y, x = VRel k y) /\ okr own h2 r' /\
            forall C : addr -> Prop, Forall (calm nothing C h) [c; v] -> (forall y, List.length h <= y -> ~ C y) -> calm nothing C h2 r')
            o2 (match vv with VRel _ _ => Ok vv | _ => mk_rel (default_rel vv) vv end)).
  { assert (N : (doh p <- new_rel (default_rel vv) v; hret (RPtr p)) h = (h2, o2) ->
      after nothing nothing own h own h2 /\ same_res (fun r' x => stands h2 r' x /\ (exists k y, x = VRel k y) /\ okr own h2 r' /\
            forall C : addr -> Prop, Forall (calm nothing C h) [c; v] -> (forall y, List.length h <= y -> ~ C y) -> calm nothing C h2 r')
            o2 (mk_rel (default_rel vv) vv)).
    { intros R2. apply hbind_inv in R2. destruct R2 as (h3 & o3 & L & R2).
      destruct (new_rel_spec nothing own h _ v h3 o3 J OV GD L) as (A3 & O3).
      pose proof (new_rel_val own h _ v vv h3 o3 J OV GD L SV) as V3.
      destruct o3 as [p|e].
      - injection R2 as <- <-. split; [exact A3|]. destruct (mk_rel (default_rel vv) vv) as [x|] eqn:M; cbn in V3 |- *; [|contradiction].
        destruct V3 as [S3 G3]. split; [exact S3|]. split; [|split].
        + unfold mk_rel in M. destruct (check_type _ _); [|discriminate]. injection M as <-. eauto.
        + apply (O3 p eq_refl).
        + intros C FC NC. apply G3; [|exact NC]. inversion FC; assumption.
      - destruct R2 as [-> ->]. split; [exact A3|]. destruct (mk_rel (default_rel vv) vv); cbn in *; [contradiction|exact V3]. }
    destruct vv; try (apply N; exact R1).
    unfold hret in R1. injection R1 as <- <-. split; [apply after_refl; exact J|]. cbn. split; [exact SV|]. split; [eauto|]. split; [exact OV|].
    intros C FC NC. inversion FC as [|? ? _ F2]. inversion F2; assumption. }
  destruct X as [A2 X].
  destruct (match vv with VRel _ _ => Ok vv | _ => mk_rel (default_rel vv) vv end) as [x|e]; destruct o2 as [r'|e']; cbn in X; try contradiction.
  - destruct X as (S2 & (k & y & ->) & O2 & C2). cbn [bind]. unfold alloc in R. injection R as <- <-. cbn.
    pose proof (in_closed _ _ (inv_after _ _ _ _ _ _ A2)) as CL2.
    split.
    + eapply stands_cond; [apply get_new| | |exact HK]; (apply stands_app; [exact CL2|]); [|exact S2].
      eapply stands_frame; [apply J|eapply stands_valid; exact SC| |exact SC].
      intros p RP. destruct A2 as (_ & _ & F). pose proof (reach_valid _ _ _ (in_closed _ _ J) RP (stands_valid _ _ _ SC)) as L. destruct (F p L) as [E|[[]|[]]]; exact E.
    + assert (LE : List.length h <= List.length h2) by apply A2.
      eapply good_trans with (h1 := h2); [exact CL2|exact LE| |reflexivity|reflexivity].
      intros a z [[= <- <-]|[[= <- <-]|[]]].
      * split; [eapply okr_valid; eapply okr_keeps; [apply A2|exact OC]|]. intros C FC NC. inversion FC as [|? ? F1 _]; subst.
        eapply calm_after; [eapply after_nil; exact A2|apply J|eapply okr_valid; eauto|exact F1].
      * split; [eapply okr_valid; exact O2|exact C2].
  - subst e'. destruct R as [-> ->]. reflexivity.
Qed.
